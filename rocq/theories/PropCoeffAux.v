(** Examples for PropCoeff: correctly rounded functions, two points and one Gaussian. *)
From Coq Require Import Reals Lra ZArith Lia List Bool.
From Flocq Require Import Core.Core IEEE754.BinarySingleNaN.
From Verif Require Import Outcome Num Float64 FloatLemmas BasisModel SpecBasis AngleFloat NearProofs SpecCoeff CoeffProofs PropMappingAux PropNearAux.
Import ListNotations.
Local Open Scope R_scope.

Definition expo (a : b64) : b64 := match a with B754_zero _ => b64_ofZ 1 | _ => nearest (exp (B2R a)) end.
Definition exact_libm : libm := {| m_sin := sine; m_cos := cosine (b64_ofZ 1); m_exp := expo;
  m_log := m_log (rounded (b64_ofZ 1)); m_atan2 := m_atan2 (rounded (b64_ofZ 1)); m_pow := m_pow (rounded (b64_ofZ 1)) |}.
Lemma exact_close A : close_cos exact_libm A.
Proof. intros a F _. apply cosine_good; [exact F|reflexivity|right; apply one_is]. Qed.
Lemma exact_bounded : bounded_cos exact_libm.
Proof.
  split; [|intros s; apply one_is]. intros a F. destruct (exact_close (Rabs (B2R a)) a F (Rle_refl _)) as [G C]. split; [exact G|]. exact (cos_range _ _ C).
Qed.
Lemma exact_exp : bounded_exp exact_libm.
Proof.
  intros a F N. cbn [m_exp exact_libm].
  assert (C : (B2R a = 0 /\ expo a = b64_ofZ 1) \/ expo a = nearest (exp (B2R a))) by (destruct a; [left; split; reflexivity|right; reflexivity..]).
  destruct C as [[_ ->]| ->]; [destruct one_is as [O1 ->]; split; [exact O1|lra]|].
  assert (B : 0 <= exp (B2R a) <= 1). { split; [left; apply exp_pos|]. rewrite <- exp_0. destruct N as [N| ->]; [left; apply exp_increasing; exact N|right; reflexivity]. }
  destruct (nearest_correct (exp (B2R a))) as [G ->]; [rewrite Rabs_pos_eq; apply B|]. split; [exact G|]. split; [apply rnd_nonneg; apply B|].
  rewrite <- (int_format 1 ltac:(lia)). apply round_le; [apply fexp_correct; reflexivity|apply valid_rnd_N|apply B].
Qed.
Definition two64 : b64 := b64_ofZ 2.
Definition modes2 : basis b64 := mkBasis two64 two64 [] [(0, 0)%Z; (1, 0)%Z].
Definition spots : list (b64 * b64) := [(b64_ofZ 1, b64_ofZ 1); (b64_ofZ 0, b64_ofZ 1)].
Definition hump : gaussian b64 := mkGaussian (b64_ofZ 1, b64_ofZ 1) (b64_ofZ 1, b64_ofZ 1) (b64_ofZ 1, b64_ofZ 1).
Definition origin64 : b64 * b64 := (b64_ofZ 0, b64_ofZ 0).
Lemma int_medium z : (Z.abs z <= 1073741824)%Z -> medium (b64_ofZ z).
Proof. intros H. destruct (ofZ_exact z ltac:(lia)) as [E F]. split; [exact F|]. rewrite E, <- abs_IZR. apply IZR_le. exact H. Qed.
Lemma spots_placed p k : In p spots -> In k (bs_k modes2) -> placed modes2 p k /\ angles modes2 2 p k.
Proof.
  intros P K. destruct (ofZ_exact 0 ltac:(lia)) as [E0 _]. destruct (ofZ_exact 1 ltac:(lia)) as [E1 _]. destruct (ofZ_exact 2 ltac:(lia)) as [E2 _].
  assert (M0 : medium (b64_ofZ 0)) by (apply int_medium; lia). assert (M1 : medium (b64_ofZ 1)) by (apply int_medium; lia). assert (M2 : medium (b64_ofZ 2)) by (apply int_medium; lia).
  pose proof PI_RGT_0 as P0. pose proof PI_4 as P4.
  assert (Q : (fst p = b64_ofZ 0 \/ fst p = b64_ofZ 1) /\ snd p = b64_ofZ 1) by (destruct P as [<-|[<-|[]]]; cbn; auto).
  assert (Q' : (fst k = 0 \/ fst k = 1)%Z /\ snd k = 0%Z) by (destruct K as [<-|[<-|[]]]; cbn; auto).
  destruct Q as [Q1 Q2], Q' as [R1 R2]. unfold placed, angles. cbn [bs_lx bs_ly modes2]. unfold two64. rewrite E2, Q2, R2, E1.
  split.
  - repeat split; try apply M1; try apply M2; try lra; try lia; destruct Q1 as [-> | ->]; try apply M0; try apply M1.
  - assert (W : forall a x, (a = 0 \/ a = 1) -> (x = 0 \/ x = 1) -> Rabs (a * PI * x / 2) <= 2).
    { intros a x A X. assert (0 <= a * PI * x / 2 <= 2) by (destruct A as [-> | ->], X as [-> | ->]; lra). rewrite Rabs_pos_eq; lra. }
    split; apply W; auto.
    + destruct R1 as [-> | ->]; auto.
    + destruct Q1 as [-> | ->]; rewrite ?E0, ?E1; auto.
Qed.
Lemma hump_modest : modest hump.
Proof.
  destruct (ofZ_exact 1 ltac:(lia)) as [E1 _]. assert (M1 : medium (b64_ofZ 1)) by (apply int_medium; lia).
  unfold modest. cbn [ga_mu ga_inv hump fst snd]. rewrite E1. repeat split; try apply M1; lra.
Qed.
Lemma hump_value : B2R (@gauss_trans b64 (F64 exact_libm) hump (b64_ofZ 1, b64_ofZ 1) origin64) = 1.
Proof.
  replace (@gauss_trans b64 (F64 exact_libm) hump (b64_ofZ 1, b64_ofZ 1) origin64) with (b64_ofZ 1); [apply one_is|].
  apply B2SF_inj. vm_compute. reflexivity.
Qed.
Lemma hump_density : density (map (fun p => @evaluate b64 (F64 exact_libm) [hump] p origin64) spots).
Proof.
  assert (M0 : medium (b64_ofZ 0)) by (apply int_medium; lia). assert (M1 : medium (b64_ofZ 1)) by (apply int_medium; lia).
  assert (E : forall p, In p spots -> medium (fst p) /\ medium (snd p)) by (intros p [<-|[<-|[]]]; split; assumption).
  assert (V := fun p I => c93_evaluate exact_libm [hump] p origin64 exact_exp (Forall_cons _ hump_modest (Forall_nil _)) ltac:(vm_compute; discriminate)
    (proj1 (E p I)) (proj2 (E p I)) M0 M0).
  split.
  - apply Forall_forall. intros v I. apply in_map_iff in I. destruct I as (p & <- & I). destruct (V p I) as (F & B & _). split; [exact F|].
    split; [apply B|]. eapply Rle_trans; [apply B|]. change (IZR (lenZ [hump])) with 1. apply Rle_trans with (bpow radix2 0); [cbn; lra|apply bpow_le; lia].
  - apply Exists_exists. exists (@evaluate b64 (F64 exact_libm) [hump] (b64_ofZ 1, b64_ofZ 1) origin64). split; [left; reflexivity|].
    destruct (V (b64_ofZ 1, b64_ofZ 1) (or_introl eq_refl)) as (_ & _ & G). specialize (G hump (or_introl eq_refl)). rewrite hump_value in G. lra.
Qed.
Lemma first_off (L : libm) : bounded_cos L -> exists c, nth_error (@trajCoeff b64 (F64 L) modes2 (repeat (b64_ofZ 0, b64_ofZ 1) 49)) 0 = Some c /\ B2R c = 1 - bpow radix2 (-53).
Proof.
  intros B. eexists. split; [exact (coeff_nth L modes2 (repeat (b64_ofZ 0, b64_ofZ 1) 49) 0 (0, 0)%Z eq_refl)|].
  set (vals := map _ _).
  assert (V : forall v, In v vals -> is_finite v = true /\ B2R v = 1).
  { intros v I. apply in_map_iff in I. destruct I as (p & <- & I). apply repeat_spec in I. subst p.
    destruct (fun_unit L modes2 (b64_ofZ 0, b64_ofZ 1) (0, 0)%Z B) as [[F _] O]; [|split; [exact F|apply O; reflexivity]].
    apply (spots_placed (b64_ofZ 0, b64_ofZ 1) (0, 0)%Z); [right; left; reflexivity|left; reflexivity]. }
  assert (S : B2R (@vsum b64 (F64 L) vals) = IZR 49). { apply (vsum_ones L vals); [apply Forall_forall; exact V|vm_compute; discriminate]. }
  assert (F : is_finite (@vsum b64 (F64 L) vals) = true).
  { apply (vsum_range L vals); [|vm_compute; discriminate]. apply Forall_forall. intros v I. destruct (V v I) as [F E]. split; [exact F|]. rewrite E, Rabs_R1. lra. }
  set (s := @vsum b64 (F64 L) vals) in *. clearbody s. clear V vals.
  assert (Es : s = b64_ofZ 49).
  { destruct (ofZ_exact 49 ltac:(lia)) as [E G]. apply B2R_inj; [| |rewrite S, E; reflexivity].
    - destruct s; try discriminate F; [cbn in S; lra|reflexivity].
    - reflexivity. }
  rewrite Es. change (lenZ (repeat (b64_ofZ 0, b64_ofZ 1) 49)) with 49%Z. change (bpow radix2 (-53)) with (/ 9007199254740992). value.
Qed.
Lemma first_refuted (L : libm) : bounded_cos L -> exists (bs : basis b64) xt c, nth_error (bs_k bs) 0 = Some (0, 0)%Z /\ length xt = 49%nat /\
  (forall p, In p xt -> placed bs p (0, 0)%Z) /\ nth_error (@trajCoeff b64 (F64 L) bs xt) 0 = Some c /\ B2R c = 1 - bpow radix2 (-53).
Proof.
  intros B. destruct (first_off L B) as (c & H1 & H2). exists modes2, (repeat (b64_ofZ 0, b64_ofZ 1) 49), c.
  split; [reflexivity|]. split; [reflexivity|]. split; [|split; assumption].
  intros p I. apply repeat_spec in I. subst p. apply (spots_placed (b64_ofZ 0, b64_ofZ 1) (0, 0)%Z); [right; left; reflexivity|left; reflexivity].
Qed.
