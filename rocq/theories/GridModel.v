(** Model of grid.hpp / grid.cpp.  Definitions only. *)
From Verif Require Import Outcome Num.
Local Open Scope Z_scope.

Section Grid.
Context {T : Type} {NT : Num T}.

(** grid.hpp:61-64 axis_length *)
Definition axis_length (lower upper rs : T) : res Z :=
  to_u32 (nround ((upper - lower) / rs))%num.

(** grid.hpp:73-76 axis_upper *)
Definition axis_upper (lower rs : T) (size : Z) : T :=
  (rs * nofZ size + lower)%num.

(** grid.hpp:79-259 class GridMap: the data members (grid.hpp:256-258).
    [unsigned int] members are Z, [GridData] (vector of int8_t) is a list of Z. *)
Record grid := mkGrid {
  g_xsize : Z; g_ysize : Z;
  g_res : T; g_xmin : T; g_ymin : T; g_xmax : T; g_ymax : T;
  g_data : list Z
}.

(** The fields of nav_msgs/OccupancyGrid that the code reads.
    [m_res] is the float32 resolution after its (exact) promotion to double. *)
Record msg := mkMsg {
  m_width : Z; m_height : Z; m_res : T; m_ox : T; m_oy : T; m_data : list Z
}.

(** The comparison [xsize_ * ysize_ != grid_data_.size()] (grid.cpp:57, 73): the product is
    computed in 32 bits, then widened. *)
Definition size_ok (xs ys : Z) (data : list Z) : bool := u32 (xs * ys) =? lenZ data.

(** grid.cpp:46-61 *)
Definition grid_ctor (xmin xmax ymin ymax rs : T) (data : list Z) : res grid :=
  let* xs := axis_length xmin xmax rs in
  let* ys := axis_length ymin ymax rs in
  if size_ok xs ys data
  then Ok (mkGrid xs ys rs xmin ymin xmax ymax data)
  else Throw EInvalidArgument.

(** Geometry and data copied from a message: grid.cpp:64-71 and 86-93 (same assignments). *)
Definition grid_of_msg (m : msg) : grid :=
  mkGrid (m_width m) (m_height m) (m_res m) (m_ox m) (m_oy m)
         (axis_upper (m_ox m) (m_res m) (m_width m))
         (axis_upper (m_oy m) (m_res m) (m_height m))
         (m_data m).

(** grid.cpp:63-77 *)
Definition grid_msg_ctor (m : msg) : res grid :=
  let g := grid_of_msg m in
  if size_ok (g_xsize g) (g_ysize g) (g_data g) then Ok g else Throw EInvalidArgument.

(** grid.cpp:79-82 *)
Definition grid_default : grid := mkGrid 0 0 n0 n0 n0 n0 n0 [].

(** grid.cpp:84-94: every member is overwritten, in this order, without a size check. *)
Definition grid_update (g : grid) (m : msg) : grid := grid_of_msg m.

(** grid.hpp:250-253 size() *)
Definition grid_size (g : grid) : Z := u32 (g_xsize g * g_ysize g).

(** grid.cpp:96-100.  [ysize_ - 1] wraps for an empty grid. *)
Definition gridBounds (g : grid) (i j : Z) : bool :=
  (i <=? u32 (g_ysize g - 1)) && (j <=? u32 (g_xsize g - 1)).

(** grid.cpp:102-107 *)
Definition gridBoundsIdx (g : grid) (idx : Z) : bool :=
  idx <=? u32 (u32 (g_xsize g * g_ysize g) - 1).

(** grid.cpp:109-117 (the out-of-bounds warning is only printed) *)
Definition grid2RowMajor (g : grid) (i j : Z) : Z := u32 (u32 (i * g_xsize g) + j).

(** grid.cpp:119-124 *)
Definition rowMajor2Grid (g : grid) (idx : Z) : res (Z * Z) :=
  if g_xsize g =? 0 then UB UDivZero
  else let i := idx / g_xsize g in Ok (i, u32 (idx - u32 (i * g_xsize g))).

(** grid.cpp:126-131 *)
Definition grid2World (g : grid) (i j : Z) : T * T :=
  ((nofZ j * g_res g + g_res g / n2 + g_xmin g)%num,
   (nofZ i * g_res g + g_res g / n2 + g_ymin g)%num).

(** grid.cpp:133-141 *)
Definition grid2WorldIdx (g : grid) (idx : Z) : res (T * T) :=
  let* ' (i, j) := rowMajor2Grid g idx in
  Ok (grid2World g i j).

(** grid.cpp:143-159: returns (i, j) = (row, column) *)
Definition world2Grid (g : grid) (x y : T) : res (Z * Z) :=
  let* j := to_u32 (nfloor ((x - g_xmin g) / g_res g))%num in
  let* i := to_u32 (nfloor ((y - g_ymin g) / g_res g))%num in
  let j' := if j =? g_xsize g then u32 (j - 1) else j in
  let i' := if i =? g_ysize g then u32 (i - 1) else i in
  Ok (i', j').

(** grid.cpp:161-165 *)
Definition world2RowMajor (g : grid) (x y : T) : res Z :=
  let* ' (i, j) := world2Grid g x y in
  Ok (grid2RowMajor g i j).

(** grid.cpp:177-184 *)
Definition getCellIdx (g : grid) (idx : Z) : res T :=
  if gridBoundsIdx g idx then
    match nthZ (g_data g) idx with
    | Some v => Ok (nofZ v / nofZ 100)%num
    | None => Throw EOutOfRange          (* vector::at *)
    end
  else Throw EInvalidArgument.

(** grid.cpp:172-175 *)
Definition getCell (g : grid) (i j : Z) : res T := getCellIdx g (grid2RowMajor g i j).

(** grid.cpp:167-170 *)
Definition getCellXY (g : grid) (x y : T) : res T :=
  let* idx := world2RowMajor g x y in getCellIdx g idx.

End Grid.
Arguments grid T : clear implicits.
Arguments msg T : clear implicits.
