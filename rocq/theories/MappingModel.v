(** Model of mapping.hpp / mapping.cpp.  Definitions only. *)
From Verif Require Import Outcome Num GridModel NumericsModel.
Local Open Scope Z_scope.

Section Mapping.
Context {T : Type} {NT : Num T}.

(** mapping.cpp:51-54 *)
Definition logOdds2Prob (l : T) : T := (n1 - (n1 / (n1 + nexp l)))%num.
(** mapping.cpp:61-64 *)
Definition prob2LogOdds (p : T) : T := nln (p / (n1 - p))%num.

(** mapping.hpp:128-133, the data members that are read after construction *)
Record mapper := mkMapper { mp_Tbs : mat3 T; mp_prior : T; mp_occ : T; mp_free : T }.

(** mapping.cpp:66-75 *)
Definition mapper_ctor (Tbs : mat3 T) : mapper :=
  mkMapper Tbs (prob2LogOdds (lit 1 2)) (prob2LogOdds (lit 90 100)) (prob2LogOdds (lit 35 100)).

(** vector::at(idx) = v *)
Fixpoint set_nth (l : list Z) (k : nat) (v : Z) : list Z :=
  match l, k with
  | [], _ => []
  | _ :: l', O => v :: l'
  | a :: l', S k' => a :: set_nth l' k' v
  end.
Definition set_data (g : grid T) (data : list Z) : grid T :=
  mkGrid (g_xsize g) (g_ysize g) (g_res g) (g_xmin g) (g_ymin g) (g_xmax g) (g_ymax g) data.

(** mapping.cpp:341-348.  The [int] coordinates are converted to [unsigned int]. *)
Definition updateCell (m : mapper) (g : grid T) (x y : Z) (log : T) : res (grid T) :=
  let idx := grid2RowMajor g (u32 y) (u32 x) in
  let* p := getCellIdx g idx in
  let log_odds := (prob2LogOdds p + log - mp_prior m)%num in
  let* v := to_int8 (logOdds2Prob log_odds * nofZ 100)%num in
  if (0 <=? idx) && (idx <? lenZ (g_data g))
  then Ok (set_data g (set_nth (g_data g) (Z.to_nat idx) v))
  else Throw EOutOfRange.

(** The four axis-parallel loops of rayTrace (mapping.cpp:140-182): [n] cells from (x, y) in steps of
    (xi, yi).  The loop bounds are distances, so every loop runs |dx| or |dy| times. *)
Fixpoint straight (n : nat) (m : mapper) (g : grid T) (x y xi yi : Z) : res (grid T) :=
  match n with
  | O => Ok g
  | S n' =>
      let* g := updateCell m g x y (mp_free m) in
      straight n' m g (x + xi) (y + yi) xi yi
  end.

(** mapping.cpp:263-280, the loop of lineLow with [n] iterations left; [skip] is ctr == 0. *)
Fixpoint low_loop (n : nat) (m : mapper) (g : grid T) (skip : bool) (x y D dx dy yi : Z) : res (grid T) :=
  match n with
  | O => Ok g
  | S n' =>
      let* g := (if skip then Ok g else updateCell m g x y (mp_free m)) in
      let* ' (y, D) := (if 0 <? D then
                          let* y := int_ck (y + yi) in
                          let* t := int_ck (2 * dx) in
                          let* D := int_ck (D - t) in Ok (y, D)
                        else Ok (y, D)) in
      let* t := int_ck (2 * dy) in
      let* D := int_ck (D + t) in
      low_loop n' m g false (x + 1) y D dx dy yi
  end.

(** mapping.cpp:245-281.  The number of iterations of a [for (x = x0; x < x1; x++)] loop is x1 - x0. *)
Definition lineLow (m : mapper) (g : grid T) (x0 y0 x1 y1 : Z) : res (grid T) :=
  let* dx := int_ck (x1 - x0) in
  let* dy := int_ck (y1 - y0) in
  let* ' (yi, dy) := (if dy <? 0 then let* dy := int_ck (- dy) in Ok (-1, dy) else Ok (1, dy)) in
  let* t := int_ck (2 * dy) in
  let* D := int_ck (t - dx) in
  low_loop (Z.to_nat (x1 - x0)) m g true x0 y0 D dx dy yi.

(** mapping.cpp:301-318 *)
Fixpoint high_loop (n : nat) (m : mapper) (g : grid T) (skip : bool) (x y D dx dy xi : Z) : res (grid T) :=
  match n with
  | O => Ok g
  | S n' =>
      let* g := (if skip then Ok g else updateCell m g x y (mp_free m)) in
      let* ' (x, D) := (if 0 <? D then
                          let* x := int_ck (x + xi) in
                          let* t := int_ck (2 * dy) in
                          let* D := int_ck (D - t) in Ok (x, D)
                        else Ok (x, D)) in
      let* t := int_ck (2 * dx) in
      let* D := int_ck (D + t) in
      high_loop n' m g false x (y + 1) D dx dy xi
  end.

(** mapping.cpp:283-319 *)
Definition lineHigh (m : mapper) (g : grid T) (x0 y0 x1 y1 : Z) : res (grid T) :=
  let* dx := int_ck (x1 - x0) in
  let* dy := int_ck (y1 - y0) in
  let* ' (xi, dx) := (if dx <? 0 then let* dx := int_ck (- dx) in Ok (-1, dx) else Ok (1, dx)) in
  let* t := int_ck (2 * dx) in
  let* D := int_ck (t - dy) in
  high_loop (Z.to_nat (y1 - y0)) m g true x0 y0 D dx dy xi.

(** mapping.cpp:332-338: while (x != x1 and y != y1), at most [fuel] times *)
Fixpoint diag_loop (fuel : nat) (m : mapper) (g : grid T) (x y x1 y1 xi yi : Z) : res (grid T) :=
  if negb (x =? x1) && negb (y =? y1) then
    match fuel with
    | O => Diverge
    | S fuel' =>
        let* g := updateCell m g x y (mp_free m) in
        let* x := int_ck (x + xi) in
        let* y := int_ck (y + yi) in
        diag_loop fuel' m g x y x1 y1 xi yi
    end
  else Ok g.

(** mapping.cpp:321-339.  A diagonal loop that runs longer than |dx| would run off the map. *)
Definition lineDiag (m : mapper) (g : grid T) (x0 y0 x1 y1 : Z) : res (grid T) :=
  let* dx := int_ck (x1 - x0) in
  let* dy := int_ck (y1 - y0) in
  let xi := if dx <? 0 then -1 else 1 in
  let yi := if dy <? 0 then -1 else 1 in
  diag_loop (Z.to_nat (Z.abs dx)) m g x0 y0 x1 y1 xi yi.

(** mapping.cpp:130-243 *)
Definition rayTrace (m : mapper) (g : grid T) (x0 y0 x1 y1 : Z) : res (grid T) :=
  let* dx := int_ck (x1 - x0) in
  let* dy := int_ck (y1 - y0) in
  if dx =? 0 then
    if dy <? 0 then straight (Z.to_nat (- dy)) m g x0 y0 0 (-1)
    else straight (Z.to_nat dy) m g x0 y0 0 1
  else if dy =? 0 then
    if dx <? 0 then straight (Z.to_nat (- dx)) m g x0 y0 (-1) 0
    else straight (Z.to_nat dx) m g x0 y0 1 0
  else
    let* ady := int_ck (Z.abs dy) in
    let* adx := int_ck (Z.abs dx) in
    if ady <? adx then
      let* g := updateCell m g x0 y0 (mp_free m) in
      if x1 <? x0 then lineLow m g x1 y1 x0 y0 else lineLow m g x0 y0 x1 y1
    else if adx <? ady then
      let* g := updateCell m g x0 y0 (mp_free m) in
      if y1 <? y0 then lineHigh m g x1 y1 x0 y0 else lineHigh m g x0 y0 x1 y1
    else if ady =? adx then lineDiag m g x0 y0 x1 y1
    else Throw EInvalidArgument.

(** The fields of sensor_msgs/LaserScan that are read.  They are float32 in the message; the values
    here are after the exact promotion to double. *)
Record scan := mkScan { s_amin : T; s_ainc : T; s_rmin : T; s_rmax : T; s_ranges : list T }.

(** mapping.cpp:101-125: the loop over the beams.  [beam_angle] is a float: each increment rounds to
    binary32.  Messages printed by the code are not modelled. *)
Fixpoint beam_loop (m : mapper) (g : grid T) (s : scan) (Tms : mat3 T) (psg : Z * Z)
    (angle : T) (ranges : list T) : res (grid T) :=
  match ranges with
  | [] => Ok g
  | r :: rest =>
      let next := nto32 (angle + s_ainc s)%num in
      if (s_rmax s <? r)%num || (r <? s_rmin s)%num then beam_loop m g s Tms psg next rest
      else
        let pt := mvmul Tms (polar2CartesianHomo angle r) in
        let* ptg := world2Grid g (v0 pt) (v1 pt) in
        let* g := (if gridBounds g (fst ptg) (snd ptg) then
                     let* g := rayTrace m g (s32 (snd psg)) (s32 (fst psg)) (s32 (snd ptg)) (s32 (fst ptg)) in
                     updateCell m g (s32 (snd ptg)) (s32 (fst ptg)) (mp_occ m)
                   else Ok g) in
        beam_loop m g s Tms psg next rest
  end.

(** mapping.cpp:77-128.  The scan has fewer than 2^32 ranges (the loop counter is unsigned int). *)
Definition updateMap (m : mapper) (g : grid T) (s : scan) (pose : vec3 T) : res (bool * grid T) :=
  let* psg := world2Grid g (v0 pose) (v1 pose) in
  if negb (gridBounds g (fst psg) (snd psg)) then Ok (false, g)
  else
    let Tms := mmul (transform2d (v0 pose) (v1 pose) (v2 pose)) (mp_Tbs m) in
    let* g := beam_loop m g s Tms psg (s_amin s) (s_ranges s) in
    Ok (true, g).

End Mapping.
Arguments mapper T : clear implicits.
Arguments scan T : clear implicits.
