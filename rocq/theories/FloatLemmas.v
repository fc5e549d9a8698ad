(** Error bounds for single binary64 operations in the form value*(1+e), |e| <= 2^-53. *)
From Coq Require Import Reals Lra ZArith Lia Psatz.
From Flocq Require Import Core.Core IEEE754.BinarySingleNaN Relative Plus_error.
From Verif Require Import Outcome Num Float64.
Local Open Scope R_scope.

Notation rnd64 := (round radix2 (SpecFloat.fexp 53 1024) ZnearestE).
Definition ueps : R := bpow radix2 (-53).

Lemma ueps_val : ueps = / 9007199254740992.
Proof. unfold ueps. cbn. reflexivity. Qed.

Lemma rnd_rel x : bpow radix2 (-1022) <= Rabs x ->
  exists e, Rabs e <= ueps /\ rnd64 x = x * (1 + e).
Proof.
  intros H.
  destruct (relative_error_N_FLT_ex radix2 (-1074) 53 eq_refl (fun z => negb (Z.even z)) x H) as [e [He Hr]].
  exists e. split; [|exact Hr].
  replace ueps with (/ 2 * bpow radix2 (-53 + 1)); [exact He|].
  unfold ueps. cbn. lra.
Qed.

Lemma rnd_bound x k : (Z.leb (-1000) k = true) -> (Z.leb k 1023 = true) -> Rabs x <= bpow radix2 k ->
  Rabs (rnd64 x) < bpow radix2 1024.
Proof.
  intros Hk1 Hk2 H. apply Z.leb_le in Hk1, Hk2.
  apply Rle_lt_trans with (bpow radix2 k).
  - apply abs_round_le_generic; [typeclasses eauto.. | | exact H].
    apply generic_format_bpow. unfold SpecFloat.fexp, SpecFloat.emin. lia.
  - apply bpow_lt. lia.
Qed.

Lemma uro_le : u_ro radix2 53 / (1 + u_ro radix2 53) <= ueps.
Proof.
  assert (E : u_ro radix2 53 = ueps) by (unfold u_ro, ueps; cbn; lra).
  rewrite E. assert (0 < ueps) by (rewrite ueps_val; lra).
  apply Rmult_le_reg_r with (1 + ueps); [lra|].
  replace (ueps / (1 + ueps) * (1 + ueps)) with ueps by (field; lra). nra.
Qed.

Lemma fplus_rnd (x y : b64) :
  is_finite x = true -> is_finite y = true -> Rabs (B2R x + B2R y) <= bpow radix2 1000 ->
  B2R (Bplus mode_NE x y) = rnd64 (B2R x + B2R y) /\ is_finite (Bplus mode_NE x y) = true.
Proof.
  intros Fx Fy H. pose proof (Bplus_correct 53 1024 _ _ mode_NE x y Fx Fy) as C.
  rewrite Rlt_bool_true in C by (apply (rnd_bound _ 1000); auto).
  split; apply C.
Qed.
Lemma fminus_rnd (x y : b64) :
  is_finite x = true -> is_finite y = true -> Rabs (B2R x - B2R y) <= bpow radix2 1000 ->
  B2R (Bminus mode_NE x y) = rnd64 (B2R x - B2R y) /\ is_finite (Bminus mode_NE x y) = true.
Proof.
  intros Fx Fy H. pose proof (Bminus_correct 53 1024 _ _ mode_NE x y Fx Fy) as C.
  rewrite Rlt_bool_true in C by (apply (rnd_bound _ 1000); auto).
  split; apply C.
Qed.
Lemma fmult_rnd (x y : b64) :
  is_finite x = true -> is_finite y = true -> Rabs (B2R x * B2R y) <= bpow radix2 1000 ->
  B2R (Bmult mode_NE x y) = rnd64 (B2R x * B2R y) /\ is_finite (Bmult mode_NE x y) = true.
Proof.
  intros Fx Fy H. pose proof (Bmult_correct 53 1024 _ _ mode_NE x y) as C.
  rewrite Rlt_bool_true in C by (apply (rnd_bound _ 1000); auto).
  rewrite Fx, Fy in C. split; apply C.
Qed.
Lemma fdiv_rnd (x y : b64) :
  is_finite x = true -> B2R y <> 0 -> Rabs (B2R x / B2R y) <= bpow radix2 1000 ->
  B2R (Bdiv mode_NE x y) = rnd64 (B2R x / B2R y) /\ is_finite (Bdiv mode_NE x y) = true.
Proof.
  intros Fx Ny H. pose proof (Bdiv_correct 53 1024 _ _ mode_NE x y Ny) as C.
  rewrite Rlt_bool_true in C by (apply (rnd_bound _ 1000); auto).
  rewrite Fx in C. split; apply C.
Qed.

Lemma fplus_rel (x y : b64) :
  is_finite x = true -> is_finite y = true -> Rabs (B2R x + B2R y) <= bpow radix2 1000 ->
  exists e, Rabs e <= ueps /\ B2R (Bplus mode_NE x y) = (B2R x + B2R y) * (1 + e) /\
            is_finite (Bplus mode_NE x y) = true.
Proof.
  intros Fx Fy H. destruct (fplus_rnd x y Fx Fy H) as [E F].
  destruct (FLT_plus_error_N_ex radix2 (-1074) 53 (fun z => negb (Z.even z)) (B2R x) (B2R y)) as [e [He Hr]].
  - apply (generic_format_B2R 53 1024 x).
  - apply (generic_format_B2R 53 1024 y).
  - exists e. split; [|split; [|exact F]].
    + eapply Rle_trans; [exact He|].
      apply uro_le.
    + rewrite E. exact Hr.
Qed.
Lemma fminus_rel (x y : b64) :
  is_finite x = true -> is_finite y = true -> Rabs (B2R x - B2R y) <= bpow radix2 1000 ->
  exists e, Rabs e <= ueps /\ B2R (Bminus mode_NE x y) = (B2R x - B2R y) * (1 + e) /\
            is_finite (Bminus mode_NE x y) = true.
Proof.
  intros Fx Fy H. destruct (fminus_rnd x y Fx Fy H) as [E F].
  destruct (FLT_plus_error_N_ex radix2 (-1074) 53 (fun z => negb (Z.even z)) (B2R x) (- B2R y)) as [e [He Hr]].
  - apply (generic_format_B2R 53 1024 x).
  - apply generic_format_opp. apply (generic_format_B2R 53 1024 y).
  - exists e. split; [|split; [|exact F]].
    + eapply Rle_trans; [exact He|].
      apply uro_le.
    + rewrite E. exact Hr.
Qed.
Lemma fmult_rel (x y : b64) :
  is_finite x = true -> is_finite y = true ->
  bpow radix2 (-1022) <= Rabs (B2R x * B2R y) <= bpow radix2 1000 ->
  exists e, Rabs e <= ueps /\ B2R (Bmult mode_NE x y) = (B2R x * B2R y) * (1 + e) /\
            is_finite (Bmult mode_NE x y) = true.
Proof.
  intros Fx Fy [H1 H2]. destruct (fmult_rnd x y Fx Fy H2) as [E F].
  destruct (rnd_rel _ H1) as [e [He Hr]]. exists e. rewrite E. auto.
Qed.
Lemma fdiv_rel (x y : b64) :
  is_finite x = true -> B2R y <> 0 ->
  bpow radix2 (-1022) <= Rabs (B2R x / B2R y) <= bpow radix2 1000 ->
  exists e, Rabs e <= ueps /\ B2R (Bdiv mode_NE x y) = (B2R x / B2R y) * (1 + e) /\
            is_finite (Bdiv mode_NE x y) = true.
Proof.
  intros Fx Fy [H1 H2]. destruct (fdiv_rnd x y Fx Fy H2) as [E F].
  destruct (rnd_rel _ H1) as [e [He Hr]]. exists e. rewrite E. auto.
Qed.

(** Integers below 2^53 convert exactly. *)
Lemma ofZ_exact z : (Z.abs z <= 9007199254740992)%Z ->
  B2R (b64_ofZ z) = IZR z /\ is_finite (b64_ofZ z) = true.
Proof.
  intros H. unfold b64_ofZ.
  pose proof (binary_normalize_correct 53 1024 prec53 emax1024 mode_NE z 0 false) as C.
  cbv zeta in C.
  assert (HF : F2R (Float radix2 z 0) = IZR z) by (unfold F2R; cbn; lra).
  rewrite HF in C.
  assert (G : generic_format radix2 (SpecFloat.fexp 53 1024) (IZR z)).
  { destruct (Z.eq_dec (Z.abs z) 9007199254740992) as [E|E].
    - assert (D : (z = 9007199254740992 \/ z = - 9007199254740992)%Z) by lia.
      destruct D as [-> | ->].
      + apply (generic_format_bpow radix2 (SpecFloat.fexp 53 1024) 53). unfold SpecFloat.fexp, SpecFloat.emin. lia.
      + change (IZR (-9007199254740992)) with (- bpow radix2 53). apply generic_format_opp.
        apply (generic_format_bpow radix2 (SpecFloat.fexp 53 1024) 53). unfold SpecFloat.fexp, SpecFloat.emin. lia.
    - apply (generic_format_FLT radix2 (-1074) 53). exists (Float radix2 z 0); cbn.
      + symmetry; exact HF.
      + change (Z.pow_pos 2 53) with 9007199254740992%Z. lia.
      + lia. }
  rewrite round_generic in C by (try typeclasses eauto; exact G).
  rewrite Rlt_bool_true in C.
  - split; apply C.
  - rewrite <- abs_IZR. apply Rle_lt_trans with (bpow radix2 53).
    + change (bpow radix2 53) with (IZR 9007199254740992). apply IZR_le. exact H.
    + apply bpow_lt. lia.
Qed.

(** Comparisons of finite numbers *)
Lemma Bltb_R (x y : b64) : is_finite x = true -> is_finite y = true ->
  Bltb x y = Rlt_bool (B2R x) (B2R y).
Proof. intros. apply Bltb_correct; assumption. Qed.
Lemma Bleb_R (x y : b64) : is_finite x = true -> is_finite y = true ->
  Bleb x y = Rle_bool (B2R x) (B2R y).
Proof. intros. apply Bleb_correct; assumption. Qed.

(** Casting a floored binary64 value. *)
Lemma floor_trunc (x : b64) : is_finite x = true ->
  b64_trunc (Bnearbyint mode_DN x) = Some (Zfloor (B2R x)).
Proof.
  intros F. unfold b64_trunc.
  destruct (Bnearbyint_correct 53 1024 _ mode_DN x) as [E [Fi _]].
  rewrite Fi, F. f_equal. apply eq_IZR. rewrite (Btrunc_correct 53 1024 _), E.
  cbn [round_mode]. rewrite !round_FIX_IZR. rewrite Ztrunc_IZR. reflexivity.
Qed.

(** The order of binary64: transitive, irreflexive, asymmetric, also with NaN and infinities. *)
Lemma Bltb_trans (x y z : b64) : Bltb x y = true -> Bltb y z = true -> Bltb x z = true.
Proof.
  destruct (is_finite x && is_finite y && is_finite z)%bool eqn:F.
  - apply andb_prop in F. destruct F as [F Fz]. apply andb_prop in F. destruct F as [Fx Fy].
    rewrite !Bltb_R by assumption.
    destruct (Rlt_bool_spec (B2R x) (B2R y)); [|discriminate].
    destruct (Rlt_bool_spec (B2R y) (B2R z)); [|discriminate].
    intros _ _. apply Rlt_bool_true. lra.
  - destruct x as [[]|[]| |[] mx ex px], y as [[]|[]| |[] my ey py]; cbn in F |- *;
      try discriminate; destruct z as [[]|[]| |[] mz ez pz]; try discriminate;
      cbn; intros; try discriminate; try reflexivity.
Qed.
Lemma Bltb_irrefl (x : b64) : Bltb x x = false.
Proof.
  destruct (is_finite x) eqn:Fx.
  - rewrite Bltb_R by assumption. apply Rlt_bool_false. lra.
  - destruct x as [[]|[]| |[] mx ex px]; try discriminate; reflexivity.
Qed.
Lemma Bltb_asym (x y : b64) : Bltb x y = true -> Bltb y x = false.
Proof.
  intros H. destruct (Bltb y x) eqn:E; [|reflexivity].
  rewrite <- (Bltb_irrefl x). symmetry. apply (Bltb_trans x y x); assumption.
Qed.
