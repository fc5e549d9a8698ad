(** Vocabulary of the property statements.  Nothing here mentions a helper of the model:
    only the observable fields of the data types and elementary arithmetic. *)
From Coq Require Import Reals.
From Verif Require Import Outcome Num GridModel.
Local Open Scope Z_scope.

(** The cell in row [i] and column [j] exists. *)
Definition in_grid {T} (g : grid T) (i j : Z) : Prop :=
  0 <= i < g_ysize g /\ 0 <= j < g_xsize g.
(** The true (unbounded) number of cells. *)
Definition cells {T} (g : grid T) : Z := g_xsize g * g_ysize g.
(** A 32-bit unsigned value. *)
Definition is_u32 (z : Z) : Prop := 0 <= z < 2 ^ 32.
(** Both dimensions are 32-bit unsigned values, as they are in the class. *)
Definition dims {T} (g : grid T) : Prop := is_u32 (g_xsize g) /\ is_u32 (g_ysize g).
(** A byte stored in the occupancy vector. *)
Definition is_byte (v : Z) : Prop := -128 <= v <= 127.
(** The number of stored bytes is the number of cells. *)
Definition sized {T} (g : grid T) : Prop := lenZ (g_data g) = cells g.

(** Ideal-real geometry: the closed map rectangle, and the rectangle of one cell. *)
Definition on_map (g : grid R) (x y : R) : Prop :=
  (g_xmin g <= x <= g_xmin g + IZR (g_xsize g) * g_res g)%R /\
  (g_ymin g <= y <= g_ymin g + IZR (g_ysize g) * g_res g)%R.
Definition in_cell (g : grid R) (i j : Z) (x y : R) : Prop :=
  (g_xmin g + IZR j * g_res g <= x <= g_xmin g + (IZR j + 1) * g_res g)%R /\
  (g_ymin g + IZR i * g_res g <= y <= g_ymin g + (IZR i + 1) * g_res g)%R.

(** ** Collision *)
(** A cell exists and its value is not below the threshold. *)
Definition occupied {T} {NT : Num T} (g : grid T) (thr : T) (i j : Z) : Prop :=
  in_grid g i j /\
  exists v, nth_error (g_data g) (Z.to_nat (i * g_xsize g + j)) = Some v /\
            nlt (nofZ v / nofZ 100)%num thr = false.

(** The digital circle of radius [r]: offsets (a, b) in cells. *)
Definition on_circle (r a b : Z) : Prop :=
  let m := Z.max (Z.abs a) (Z.abs b) in
  - m <= a ^ 2 + b ^ 2 - r ^ 2 < m /\
  ~ (Z.abs a = Z.abs b /\ a ^ 2 + b ^ 2 - r ^ 2 = m - 1).
(** Offsets on some circle of radius between [rb] and [rm]. *)
Definition scanned (rb rm a b : Z) : Prop :=
  exists r, rb <= r <= rm /\ 1 <= r /\ on_circle r a b.

(** A map of ordinary size with matching data. *)
Definition ordinary_map {T} (g : grid T) : Prop :=
  0 < g_xsize g <= 2 ^ 31 /\ 0 < g_ysize g <= 2 ^ 31 /\ cells g <= 2 ^ 32 /\ sized g.

Definition adjacent4 (p q : Z * Z) : Prop :=
  Z.abs (fst p - fst q) + Z.abs (snd p - snd q) = 1.
(** A chain of cells in which consecutive ones share an edge. *)
Fixpoint chain4 (p : Z * Z) (l : list (Z * Z)) : Prop :=
  match l with [] => True | q :: l' => adjacent4 p q /\ chain4 q l' end.
