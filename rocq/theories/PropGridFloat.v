(** Properties C06-C08 in binary64.  Theorems, examples and Print Assumptions only. *)
From Coq Require Import Reals Lra ZArith Lia.
From Flocq Require Import Core.Raux Core.Zaux IEEE754.BinarySingleNaN.
From Verif Require Import Outcome Num Float64 GridModel Spec PropGridFloatAux.
Local Open Scope Z_scope.

(** C06: the answer for a point on the map is a cell of the map, and the point lies in that cell or within
    2^-19 of a cell side of it. *)
Theorem C06_world2Grid_containing_cell_binary64 : forall (L : libm) (g : grid b64) (x y : b64),
  dims g -> 0 < g_xsize g -> 0 < g_ysize g ->
  is_finite (g_res g) = true -> is_finite (g_xmin g) = true -> is_finite (g_ymin g) = true ->
  is_finite x = true -> is_finite y = true ->
  (bpow radix2 (-500) <= B2R (g_res g) <= bpow radix2 500)%R ->
  (B2R (g_xmin g) <= B2R x <= B2R (g_xmin g) + IZR (g_xsize g) * B2R (g_res g))%R ->
  (B2R (g_ymin g) <= B2R y <= B2R (g_ymin g) + IZR (g_ysize g) * B2R (g_res g))%R ->
  exists i j, @world2Grid b64 (F64 L) g x y = Ok (i, j) /\ in_grid g i j /\
    (B2R (g_xmin g) + (IZR j - bpow radix2 (-19)) * B2R (g_res g) <= B2R x <=
     B2R (g_xmin g) + (IZR j + 1 + bpow radix2 (-19)) * B2R (g_res g))%R /\
    (B2R (g_ymin g) + (IZR i - bpow radix2 (-19)) * B2R (g_res g) <= B2R y <=
     B2R (g_ymin g) + (IZR i + 1 + bpow radix2 (-19)) * B2R (g_res g))%R.
Proof. exact c06_b64. Qed.
Print Assumptions C06_world2Grid_containing_cell_binary64.
(** A 3 x 2 grid of 1/16 m cells with origin (-12.5, 3), and the point (-12.40625, 3.125) on its upper edge. *)
Example C06_example_binary64 : dims gex /\ 0 < g_xsize gex /\ 0 < g_ysize gex /\
  is_finite (g_res gex) = true /\ is_finite (g_xmin gex) = true /\ is_finite (g_ymin gex) = true /\
  is_finite (fl (-397) (-5)) = true /\ is_finite (fl 25 (-3)) = true /\
  (bpow radix2 (-500) <= B2R (g_res gex) <= bpow radix2 500)%R /\
  (B2R (g_xmin gex) <= B2R (fl (-397) (-5)) <= B2R (g_xmin gex) + IZR (g_xsize gex) * B2R (g_res gex))%R /\
  (B2R (g_ymin gex) <= B2R (fl 25 (-3)) <= B2R (g_ymin gex) + IZR (g_ysize gex) * B2R (g_res gex))%R /\
  (forall L, @world2Grid b64 (F64 L) gex (fl (-397) (-5)) (fl 25 (-3)) = Ok (1, 1)).
Proof. exact c06_example_b64. Qed.

(** C07 *)
Theorem C07_left_or_below_is_undefined_binary64 : forall (L : libm) (g : grid b64) (x y : b64),
  is_finite (g_res g) = true -> is_finite (g_xmin g) = true -> is_finite (g_ymin g) = true ->
  is_finite x = true -> is_finite y = true ->
  (bpow radix2 (-500) <= B2R (g_res g) <= 1)%R ->
  (Rabs (B2R (g_xmin g) - B2R x) <= bpow radix2 400)%R -> (Rabs (B2R (g_ymin g) - B2R y) <= bpow radix2 400)%R ->
  (B2R x < B2R (g_xmin g) \/ B2R y < B2R (g_ymin g))%R ->
  @world2Grid b64 (F64 L) g x y = UB UFloatCast.
Proof. exact c07_b64. Qed.
Print Assumptions C07_left_or_below_is_undefined_binary64.
(** The point (-13, 3) is left of the example grid. *)
Example C07_example_binary64 : is_finite (g_res gex) = true /\ is_finite (g_xmin gex) = true /\ is_finite (g_ymin gex) = true /\
  is_finite (fl (-13) 0) = true /\ is_finite (fl 3 0) = true /\
  (bpow radix2 (-500) <= B2R (g_res gex) <= 1)%R /\
  (Rabs (B2R (g_xmin gex) - B2R (fl (-13) 0)) <= bpow radix2 400)%R /\
  (Rabs (B2R (g_ymin gex) - B2R (fl 3 0)) <= bpow radix2 400)%R /\ (B2R (fl (-13) 0) < B2R (g_xmin gex))%R.
Proof. exact c07_example_b64. Qed.

(** C08 *)
Theorem C08_axis_length_inverts_axis_upper_binary64 : forall (L : libm) (lo rs : b64) n,
  is_u32 n -> is_finite rs = true -> is_finite lo = true ->
  (bpow radix2 (-500) <= B2R rs <= bpow radix2 500)%R ->
  (Rabs (B2R lo) <= bpow radix2 48 * B2R rs)%R ->
  @axis_length b64 (F64 L) lo (@axis_upper b64 (F64 L) lo rs n) rs = Ok n.
Proof. exact c08_b64. Qed.
Print Assumptions C08_axis_length_inverts_axis_upper_binary64.
(** A grid made from a message is the grid that the other constructor makes from its bounds and data. *)
Theorem C08_constructors_agree_binary64 : forall (L : libm) (m : msg b64),
  is_u32 (m_width m) -> is_u32 (m_height m) -> is_finite (m_res m) = true ->
  is_finite (m_ox m) = true -> is_finite (m_oy m) = true ->
  (bpow radix2 (-500) <= B2R (m_res m) <= bpow radix2 500)%R ->
  (Rabs (B2R (m_ox m)) <= bpow radix2 48 * B2R (m_res m))%R ->
  (Rabs (B2R (m_oy m)) <= bpow radix2 48 * B2R (m_res m))%R ->
  forall g, @grid_msg_ctor b64 (F64 L) m = Ok g ->
  @grid_ctor b64 (F64 L) (g_xmin g) (g_xmax g) (g_ymin g) (g_ymax g) (g_res g) (g_data g) = Ok g.
Proof. exact c08_msg. Qed.
Print Assumptions C08_constructors_agree_binary64.
(** The magnitude hypothesis is needed: with lower bound 2^60 and resolution 1 an axis of one cell has length 0. *)
Theorem C08_far_origin_refuted : forall L : libm, exists lo rs : b64,
  is_finite lo = true /\ is_finite rs = true /\ B2R rs = 1%R /\
  @axis_length b64 (F64 L) lo (@axis_upper b64 (F64 L) lo rs 1) rs <> Ok 1.
Proof. exact c08_far. Qed.
Print Assumptions C08_far_origin_refuted.
Example C08_example_binary64 : is_u32 3 /\ is_finite (g_res gex) = true /\ is_finite (g_xmin gex) = true /\
  (bpow radix2 (-500) <= B2R (g_res gex) <= bpow radix2 500)%R /\
  (Rabs (B2R (g_xmin gex)) <= bpow radix2 48 * B2R (g_res gex))%R /\
  forall L, exists g, @grid_msg_ctor b64 (F64 L) (mkMsg 3 2 (g_res gex) (g_xmin gex) (g_ymin gex) [0; 1; 2; 3; 4; 5]) = Ok g.
Proof. exact c08_example_b64. Qed.
