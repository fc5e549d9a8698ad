(** Reference notions for targets that are out of sight, in binary64. *)
From Coq Require Import ZArith List Bool.
From Flocq Require Import IEEE754.BinarySingleNaN.
From Verif Require Import Outcome Num Float64 GridModel NumericsModel BufferModel BasisModel RobotModel ErgodicModel ExplorationModel SpecExploration.
Import ListNotations.

Section Any.
Context {T : Type} {NT : Num T}.
(** The map an iteration plans on; the width and height of a map. *)
Definition ev_map (e : event T) : grid T := sh_grid (mo_plan (ev_at e)).
Definition extents (g : grid T) : T * T := ((g_xmax g - g_xmin g)%num, (g_ymax g - g_ymin g)%num).
Definition same_extents (g : grid T) (d : T * T) : Prop :=
  almost_equal (fst (extents g)) (fst d) = true /\ almost_equal (snd (extents g)) (snd d) = true.
(** The map [e] plans on has extents, and others than the maps planned on before. *)
Definition new_extents (before : list (event T)) (e : event T) : Prop :=
  ~ same_extents (ev_map e) (n0, n0) /\ forall e', In e' before -> planned e' -> ~ same_extents (ev_map e) (extents (ev_map e')).
(** 0, r, r + r, ... *)
Fixpoint tick (r : T) (i : nat) : T := match i with O => n0 | S i => (tick r i + r)%num end.
(** The point in row j and column i of the lattice with spacing r. *)
Definition node_at (r : T) (i j : nat) : T * T := (tick r i, tick r j).
End Any.

Definition zero64 (x : b64) : Prop := exists s, x = B754_zero s.
Definition nan3 (u : vec3 b64) : Prop := u = V3 B754_nan B754_nan B754_nan.
(** Every Gaussian of the parameters evaluates to zero at every point of the lattice on the map, seen from its corner. *)
Definition out_of_sight (L : libm) (p : params b64) (g : grid b64) : Prop :=
  exists nx ny, @axis_length b64 (F64 L) (@n0 b64 (F64 L)) (fst (@extents b64 (F64 L) g)) (pa_target_resolution p) = Ok nx /\
    @axis_length b64 (F64 L) (@n0 b64 (F64 L)) (snd (@extents b64 (F64 L) g)) (pa_target_resolution p) = Ok ny /\ (0 <= nx < two32 - 1)%Z /\ (0 <= ny < two32 - 1)%Z /\
    forall ms a i j, In ms (pa_gaussians p) -> @gaussian_ctor b64 (F64 L) (fst ms) (snd ms) = Ok a -> (Z.of_nat i <= nx)%Z -> (Z.of_nat j <= ny)%Z ->
      zero64 (@gauss_trans b64 (F64 L) a (@node_at b64 (F64 L) (pa_target_resolution p) i j) (g_xmin g, g_ymin g)).
(** The exponential returns zero from -746 on, as every one correct to an ulp does. *)
Definition underflows (L : libm) : Prop := forall x, Bltb x (b64_ofZ (-746)) = true -> m_exp L x = B754_zero false.
(** Minus half the squared distance of a point from the mean, in standard deviations, as computed. *)
Definition exponent (L : libm) (ms : (b64 * b64) * (b64 * b64)) (pt corner : b64 * b64) : b64 :=
  let div := @ndiv b64 (F64 L) in let mul := @nmul b64 (F64 L) in let add := @nadd b64 (F64 L) in let sub := @nsub b64 (F64 L) in let z := b64_ofZ 0 in
  let dx := sub (fst pt) (sub (fst (fst ms)) (fst corner)) in
  let dy := sub (snd pt) (sub (snd (fst ms)) (snd corner)) in
  let ix := div (b64_ofZ 1) (mul (fst (snd ms)) (fst (snd ms))) in
  let iy := div (b64_ofZ 1) (mul (snd (snd ms)) (snd (snd ms))) in
  mul (@nneg b64 (F64 L) (div (b64_ofZ 1) (b64_ofZ 2))) (add (mul (add (mul dx ix) (mul dy z)) dx) (mul (add (mul dx z) (mul dy iy)) dy)).
(** All of the lattice is that far away from the means of all Gaussians. *)
Definition far_away (L : libm) (p : params b64) (g : grid b64) : Prop :=
  exists nx ny, @axis_length b64 (F64 L) (@n0 b64 (F64 L)) (fst (@extents b64 (F64 L) g)) (pa_target_resolution p) = Ok nx /\
    @axis_length b64 (F64 L) (@n0 b64 (F64 L)) (snd (@extents b64 (F64 L) g)) (pa_target_resolution p) = Ok ny /\ (0 <= nx < two32 - 1)%Z /\ (0 <= ny < two32 - 1)%Z /\
    forall ms i j, In ms (pa_gaussians p) -> (Z.of_nat i <= nx)%Z -> (Z.of_nat j <= ny)%Z ->
      Bltb (exponent L ms (@node_at b64 (F64 L) (pa_target_resolution p) i j) (g_xmin g, g_ymin g)) (b64_ofZ (-746)) = true.
