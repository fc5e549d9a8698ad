(** Examples for PropPolar. *)
From Coq Require Import Reals Lra ZArith Lia.
From Flocq Require Import Core.Core IEEE754.BinarySingleNaN.
From Verif Require Import Outcome Num Float64 FloatLemmas NumericsModel SpecBarrier SpecPolar PropSlopeAux.
Local Open Scope R_scope.

Definition speck : b64 := b64_scaled 1 (-600).
Definition far : b64 := b64_scaled 1 600.
Lemma speck_pos : is_finite speck = true /\ 0 < B2R speck.
Proof. split; [reflexivity|]. change (B2R speck) with (F2R (Float radix2 (Zpos 4503599627370496) (-652))). apply F2R_gt_0. reflexivity. Qed.
Lemma far_finite : is_finite far = true. Proof. reflexivity. Qed.
Lemma merged (L : libm) : @distance b64 (F64 L) (b64_ofZ 0) (b64_ofZ 0) speck (b64_ofZ 0) = b64_ofZ 0.
Proof. apply B2SF_inj. vm_compute. reflexivity. Qed.
Lemma lost (L : libm) : is_finite (@distance b64 (F64 L) (b64_ofZ 0) (b64_ofZ 0) far (b64_ofZ 0)) = false.
Proof. vm_compute. reflexivity. Qed.
Lemma c99_refuted (L : libm) : exists x y : b64, is_finite x = true /\ 0 < B2R x /\ @distance b64 (F64 L) (b64_ofZ 0) (b64_ofZ 0) x (b64_ofZ 0) = b64_ofZ 0 /\
  is_finite y = true /\ is_finite (@distance b64 (F64 L) (b64_ofZ 0) (b64_ofZ 0) y (b64_ofZ 0)) = false.
Proof. exists speck, far. destruct speck_pos as [F P]. exact (conj F (conj P (conj (merged L) (conj far_finite (lost L))))). Qed.
Lemma three_four : up_to (bpow radix2 40) (b64_ofZ 0) /\ up_to (bpow radix2 40) (b64_ofZ 3) /\ up_to (bpow radix2 40) (b64_ofZ 4) /\ euclid (b64_ofZ 0) (b64_ofZ 0) (b64_ofZ 3) (b64_ofZ 4) = 5.
Proof.
  assert (B : 4 <= bpow radix2 40) by (cbn; lra).
  assert (U : forall z, (Z.abs z <= 4)%Z -> up_to (bpow radix2 40) (b64_ofZ z)) by (intros z H; destruct (int_bound z 4 H ltac:(lia)) as [F A]; split; [exact F|lra]).
  split; [apply U; lia|]. split; [apply U; lia|]. split; [apply U; lia|]. unfold euclid.
  rewrite (proj1 (ofZ_exact 0 ltac:(lia))), (proj1 (ofZ_exact 3 ltac:(lia))), (proj1 (ofZ_exact 4 ltac:(lia))). replace ((3 - 0) ^ 2 + (4 - 0) ^ 2) with (5 * 5) by ring. apply sqrt_square. lra.
Qed.
Lemma beam : up_to 2 (b64_ofZ (-2)) /\ up_to 3 (b64_ofZ 3).
Proof. split; [apply (int_bound (-2) 2)|apply (int_bound 3 3)]; lia. Qed.
