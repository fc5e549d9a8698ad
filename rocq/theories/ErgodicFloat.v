(** Lemmas behind the ergodic controller properties in binary64. *)
From Coq Require Import Reals ZArith List Lia Bool SpecFloat.
From Flocq Require Import IEEE754.BinarySingleNaN.
From Verif Require Import Outcome Num Float64 FloatLemmas GridModel NumericsModel BufferModel BasisModel RobotModel ErgodicModel SpecErgodic
  RobotProofs ErgodicProofs ErgodicReal.
Import ListNotations.

Lemma swap_cases (x y : b64) : is_nan x = false -> is_nan y = false ->
  exists c, SFcompare (B2SF x) (B2SF y) = Some c /\ SFcompare (B2SF y) (B2SF x) = Some (CompOpp c).
Proof.
  intros Nx Ny. pose proof (Bcompare_swap _ _ x y) as S. unfold Bcompare in S. rewrite S. clear S.
  destruct (SFcompare (B2SF x) (B2SF y)) as [c|] eqn:E; [eauto|]. exfalso.
  destruct x as [sx|sx| |sx mx ex Hx], y as [sy|sy| |sy my ey Hy]; cbn in E, Nx, Ny; try discriminate;
    repeat match goal with s : bool |- _ => destruct s end; try discriminate; destruct (Z.compare _ _); discriminate.
Qed.
Lemma leb_nan (x y : b64) : Bleb x y = true -> is_nan x = false /\ is_nan y = false.
Proof. unfold Bleb, SFleb. destruct x, y; cbn; try discriminate; auto. Qed.
Lemma leb_ltb (x y : b64) : Bleb x y = true -> Bltb y x = false.
Proof.
  intros H. destruct (leb_nan _ _ H) as (Nx & Ny). destruct (swap_cases x y Nx Ny) as (c & E1 & E2). unfold Bleb, SFleb in H. unfold Bltb, SFltb.
  rewrite E1 in H. rewrite E2. destruct c; try discriminate; reflexivity.
Qed.
Lemma ltb_leb_conv (x y : b64) : is_nan x = false -> is_nan y = false -> Bltb y x = false -> Bleb x y = true.
Proof.
  intros Nx Ny H. destruct (swap_cases x y Nx Ny) as (c & E1 & E2). unfold Bltb, SFltb in H. unfold Bleb, SFleb. rewrite E2 in H. rewrite E1.
  destruct c; try discriminate; reflexivity.
Qed.
Section B.
Variable L : libm.
Local Instance NB : Num b64 := F64 L.
Lemma clamped_64 lo hi c : Bleb lo hi = true -> clamped lo hi c -> within64 lo hi c.
Proof.
  intros H (C1 & C2). cbn in C1, C2. destruct (leb_nan _ _ H) as (Nl & Nh). unfold within64. destruct (is_nan c) eqn:N; [left; reflexivity|right].
  split; apply ltb_leb_conv; assumption.
Qed.
Lemma proper_64 (e : ec b64) : limits64 e -> proper (ec_umin e) (ec_umax e).
Proof.
  intros (H0 & H1 & H2). repeat split; cbn; try apply Bltb_irrefl; apply leb_ltb; assumption.
Qed.
Lemma clamped3_64 (e : ec b64) u : limits64 e -> clamped3 (ec_umin e) (ec_umax e) u -> in_box64 (ec_umin e) (ec_umax e) u.
Proof. intros (H0 & H1 & H2) (C0 & C1 & C2). repeat split; apply clamped_64; assumption. Qed.
Lemma c55_64 (e0 e : ec b64) : constructed e0 -> limits64 e0 -> history e0 e ->
  (Forall (fun u => u = zero3) (ec_ut e) \/ Forall (in_box64 (ec_umin e0) (ec_umax e0)) (ec_ut e)) /\
  forall g x draws u e', ec_control e g x draws = Ok (u, e') ->
    in_box64 (ec_umin e0) (ec_umax e0) u /\ Forall (in_box64 (ec_umin e0) (ec_umax e0)) (ec_ut e').
Proof.
  intros C Lm H. pose proof (proper_64 _ Lm) as P. split.
  - destruct (history_clamped e0 e (ctor_zero e0 C) P H) as [F|F]; [left; exact F|right].
    eapply Forall_impl; [|exact F]. intros u. apply clamped3_64. exact Lm.
  - intros g x draws u e' K. pose proof (history_kept _ _ H) as (_ & _ & _ & _ & _ & _ & _ & _ & Um & UM & _).
    assert (P' : proper (ec_umin e) (ec_umax e)) by (rewrite Um, UM; exact P).
    destruct (control_clamped e e' g x draws u P' K) as (F & G). rewrite Um, UM in F, G. split; [apply clamped3_64; assumption|].
    eapply Forall_impl; [|exact F]. intros v. apply clamped3_64. exact Lm.
Qed.
Lemma zero_almost (c : b64) : Bleb n0 c = true -> Bleb c n0 = true -> almost_equal c n0 = true.
Proof.
  intros H1 H2. destruct c as [s|s| |s m e H]; [destruct s; vm_compute; reflexivity|destruct s; vm_compute in H1, H2; discriminate|discriminate|].
  destruct s; cbn in H1, H2; discriminate.
Qed.
Lemma c56_64 (e0 e : ec b64) : constructed e0 -> ec_model e0 = cart_plant -> limits64 e0 -> v1 (ec_umin e0) = n0 -> v1 (ec_umax e0) = n0 ->
  history e0 e ->
  (exists g x draws, ec_control e g x draws = Throw EInvalidArgument) \/ optTraj e = Throw EInvalidArgument \/ ec_path e = Throw EInvalidArgument ->
  exists u, In u (ec_ut e) /\ is_nan (v1 u) = true.
Proof.
  intros C M Lm Z1 Z2 H T.
  destruct (cart_throw e0 e (ctor_zero e0 C) (proper_64 _ Lm) M ltac:(vm_compute; reflexivity) H T) as (u & I & Cl & A).
  exists u. split; [exact I|]. destruct (clamped3_64 _ _ Lm Cl) as (_ & W & _). rewrite Z1, Z2 in W. destruct W as [N|(W1 & W2)]; [exact N|].
  rewrite (zero_almost _ W1 W2) in A. discriminate.
Qed.
End B.
