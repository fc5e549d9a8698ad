(** Lemmas behind the ergodic controller properties. *)
From Coq Require Import Reals Lra Lia ZArith List ZifyBool Psatz.
From Coquelicot Require Import Coquelicot.
From Flocq Require Import Core.Raux IEEE754.BinarySingleNaN.
From Verif Require Import Outcome Num Float64 FloatLemmas GridModel GridProofs NumericsModel SpecMotion NumericsProofs MotionProofs
  BufferModel BufferProofs BasisModel SpecBasis BasisProofs RobotModel SpecRobot RobotProofs ErgodicModel SpecErgodic.
Import ListNotations.
Ltac Zify.zify_post_hook ::= idtac.

Section Generic.
Context {T : Type} {NT : Num T}.

Lemma config_same (e e' : ec T) g : configTarget e g = Ok e' ->
  exists phik bs, e' = set_domain e phik (g_xmin g, g_ymin g) bs /\ bs_lam bs = bs_lam (ec_basis e) /\ bs_k bs = bs_k (ec_basis e).
Proof.
  unfold configTarget. destruct (_ && _)%bool.
  - intros E. injection E as <-. do 2 eexists. split; [reflexivity|]. split; reflexivity.
  - destruct (axis_length _ (nsub (g_xmax g) (g_xmin g)) _); cbn [bind]; try discriminate.
    destruct (axis_length _ (nsub (g_ymax g) (g_ymin g)) _); cbn [bind]; try discriminate.
    destruct (phi_points _ _ _) as [pts| | |]; cbn [bind]; try discriminate.
    destruct (spatialCoeff _ _ _); cbn [bind]; try discriminate.
    intros E. injection E as <-. do 2 eexists. split; [reflexivity|]. split; reflexivity.
Qed.

(** What a successful call went through. *)
Definition shifted (e : ec T) (c : list T) : vec3 T :=
  V3 (nsub (v0 (of_col c)) (fst (ec_map_pos e))) (nsub (v1 (of_col c)) (snd (ec_map_pos e))) (v2 (of_col c)).
Lemma update_ok (e : ec T) xt rhot us : updateControl e xt rhot = Ok us ->
  us = new_controls e xt rhot /\ (clamps_defined e = true \/ new_controls e xt rhot = []).
Proof.
  unfold updateControl, new_controls. destruct (combine xt rhot); [intros E; injection E as <-; auto|].
  destruct (clamps_defined e); [|discriminate]. intros E. injection E as <-. auto.
Qed.
Lemma update_defined (e : ec T) xt rhot : clamps_defined e = true -> updateControl e xt rhot = Ok (new_controls e xt rhot).
Proof. intros H. unfold updateControl, new_controls. rewrite H. destruct (combine xt rhot); reflexivity. Qed.
Lemma control_dec (e : ec T) g x draws u e' : ec_control e g x draws = Ok (u, e') ->
  exists e1 traj total edx rhot,
  let ut := tl (ec_ut e) ++ [zero3] in
  let all := map (shifted e1) (m_cols total) in
  let xt := skipn (Z.to_nat (lenZ all - ec_steps e1)) all in
  let ck := trajCoeff (ec_basis e1) (map xy all) in
  configTarget (set_pose e x) g = Ok e1 /\ (2 <= length (ec_ut e))%nat /\
  rk4_solve (ec_dt e1) (rb_f (pl_robot (ec_model e1))) x ut (ec_horizon e1) = Ok traj /\
  sampleMemory (ec_buffer e1) draws (mkMat 3 (map to_col traj)) = Ok total /\
  (ec_steps e1 <> 0)%Z /\ (ec_steps e1 <= lenZ all)%Z /\
  gradErgodicMetric e1 ck xt = Ok edx /\
  co_solve (ec_dt e1) rhodot (rb_fdx (pl_robot (ec_model e1))) (ec_rhoT e1) xt ut edx (gradBarrier e1 xt) (ec_horizon e1) = Ok rhot /\
  e' = set_ut e1 (new_controls e1 xt rhot) /\ col_at (new_controls e1 xt rhot) 0 = Ok u /\ clamps_defined e1 = true.
Proof.
  unfold ec_control. destruct (configTarget _ _) as [e1| | |] eqn:C; cbn [bind]; try discriminate.
  destruct (config_same _ _ _ C) as (ph & bs & E1 & L & K).
  assert (EU : ec_ut e1 = ec_ut e) by (subst e1; reflexivity). rewrite EU.
  destruct (ec_ut e) as [|a [|b l]] eqn:U; try discriminate. cbn [shift_controls bind].
  destruct (rk4_solve _ _ _ _ _) as [traj| | |] eqn:R; cbn [bind]; try discriminate.
  destruct (sampleMemory _ _ _) as [total| | |] eqn:S; cbn [bind]; try discriminate.
  change (map (fun c : list T => _) (m_cols total)) with (map (shifted e1) (m_cols total)).
  destruct ((ec_steps e1 =? 0) || _)%bool eqn:B; [discriminate|].
  destruct (gradErgodicMetric _ _ _) as [edx| | |] eqn:G; cbn [bind]; try discriminate.
  destruct (co_solve _ _ _ _ _ _ _ _ _) as [rhot| | |] eqn:O; cbn [bind]; try discriminate.
  destruct (updateControl _ _ _) as [us| | |] eqn:UC; cbn [bind]; try discriminate.
  destruct (col_at _ _) as [u1| | |] eqn:A; cbn [bind]; try discriminate.
  destruct (update_ok _ _ _ _ UC) as (-> & [UC'|UC']); [|rewrite UC' in A; discriminate].
  intros E. injection E as <- <-. exists e1, traj, total, edx, rhot. cbn zeta. cbn [tl].
  repeat match goal with |- _ /\ _ => split end; try assumption; try reflexivity; try (cbn [length]; lia).
Qed.

(** Members that no call changes. *)
Definition kept (a b : ec T) : Prop :=
  ec_model b = ec_model a /\ ec_dt b = ec_dt a /\ ec_horizon b = ec_horizon a /\ ec_resolution b = ec_resolution a /\
  ec_weight b = ec_weight a /\ ec_steps b = ec_steps a /\ ec_Rinv b = ec_Rinv a /\ ec_rhoT b = ec_rhoT a /\
  ec_umin b = ec_umin a /\ ec_umax b = ec_umax a /\
  bs_lam (ec_basis b) = bs_lam (ec_basis a) /\ bs_k (ec_basis b) = bs_k (ec_basis a).
Lemma kept_refl a : kept a a. Proof. repeat split. Qed.
Lemma kept_trans a b c : kept a b -> kept b c -> kept a c.
Proof. unfold kept. intuition congruence. Qed.
Lemma config_kept (e e' : ec T) g : configTarget e g = Ok e' -> kept e e'.
Proof. intros C. destruct (config_same _ _ _ C) as (ph & bs & -> & L & K). repeat split; assumption. Qed.
Lemma control_kept (e e' : ec T) g x draws u : ec_control e g x draws = Ok (u, e') -> kept e e'.
Proof.
  intros C. destruct (control_dec _ _ _ _ _ _ C) as (e1 & tr & to & ed & rh & H). cbn zeta in H.
  destruct H as (C1 & _ & _ & _ & _ & _ & _ & _ & -> & _).
  destruct (config_same _ _ _ C1) as (ph & bs & -> & L & K). repeat split; assumption.
Qed.
Lemma call_kept e e' : call e e' -> kept e e'.
Proof.
  destruct 1; [eapply control_kept; eassumption|repeat split|repeat split|eapply config_kept; eassumption].
Qed.
Lemma history_kept e e' : history e e' -> kept e e'.
Proof. induction 1; [apply kept_refl|]. eapply kept_trans; [eassumption|apply call_kept; assumption]. Qed.

(** The number of columns. *)
Lemma update_len (e : ec T) xt rhot : length (new_controls e xt rhot) = Nat.min (length xt) (length rhot).
Proof. unfold new_controls. rewrite map_length, combine_length. reflexivity. Qed.
Lemma co_loop_len {U} dt func (fdx : vec3 T -> U -> mat3 T) i : forall rho xt ut edx bdx acc rs,
  co_loop i dt func fdx rho xt ut edx bdx acc = Ok rs -> length rs = (i + length acc)%nat.
Proof.
  induction i as [|i IH]; intros rho xt ut edx bdx acc rs; cbn [co_loop].
  - intros E. injection E as <-. reflexivity.
  - destruct (col_at edx _); cbn [bind]; try discriminate. destruct (col_at bdx _); cbn [bind]; try discriminate.
    destruct (col_at xt _); cbn [bind]; try discriminate. destruct (col_at ut _); cbn [bind]; try discriminate.
    intros E. apply IH in E. cbn [length] in E. lia.
Qed.
Lemma steps_range (dt h : T) n : num_steps dt h = Ok n -> (0 <= n < two32)%Z.
Proof.
  unfold num_steps, to_u32. destruct (ntrunc _); [|discriminate]. destruct (_ && _)%bool eqn:E; [|discriminate].
  intros X. injection X as <-. lia.
Qed.
Lemma skip_len {A} (l : list A) n : (0 <= n <= lenZ l)%Z -> length (skipn (Z.to_nat (lenZ l - n)) l) = Z.to_nat n.
Proof. unfold lenZ. intros H. rewrite skipn_length. lia. Qed.

(** Invariant of every reachable controller. *)
Record inv (e : ec T) : Prop := {
  i_steps : num_steps (ec_dt e) (ec_horizon e) = Ok (ec_steps e);
  i_not1 : ec_steps e <> 1%Z;
  i_len : lenZ (ec_ut e) = ec_steps e;
  i_rhoT : ec_rhoT e = zero3;
  i_lam : bs_lam (ec_basis e) = map weight (bs_k (ec_basis e));
  i_basis : exists n, bs_k (ec_basis e) = basis_numbers n;
  i_buf : exists hist, (0 <= b_size (ec_buffer e) < two32)%Z /\
     ec_buffer e = fold_left append (map to_col hist) (buffer_ctor (b_size (ec_buffer e)) (b_batch (ec_buffer e)))
}.
Lemma ctor_inv m dt h r w nb size batch Rinv umin umax e : (0 <= nb)%Z -> (0 <= size < two32)%Z ->
  ec_ctor m dt h r w nb size batch Rinv umin umax = Ok e ->
  inv e /\ e = mkEC m dt h r w (ec_steps e) Rinv (repeat zero3 (Z.to_nat (ec_steps e))) None zero3 (n0, n0) umin umax zero3
     (ec_basis e) (buffer_ctor size batch) [] /\
  basis_ctor n0 n0 nb = Ok (ec_basis e).
Proof.
  intros NB SZ. unfold ec_ctor. destruct (num_steps dt h) as [n| | |] eqn:N; cbn [bind]; try discriminate.
  destruct (basis_ctor _ _ _) as [bs| | |] eqn:B; cbn [bind]; try discriminate.
  destruct (n =? 1)%Z eqn:E1; [discriminate|]. intros E. injection E as <-. pose proof (steps_range _ _ _ N).
  split; [|split; reflexivity]. unfold basis_ctor in B.
  destruct (_ <? _)%Z in B; [|destruct (_ && _)%bool in B; discriminate]. injection B as <-.
  constructor; cbn [ec_steps ec_dt ec_horizon ec_ut ec_rhoT ec_basis ec_buffer bs_lam bs_k]; try assumption; try reflexivity; try lia.
  - unfold lenZ. rewrite repeat_length. lia.
  - eexists. reflexivity.
  - exists []. split; [exact SZ|reflexivity].
Qed.
Lemma inv_intro (e e' : ec T) : kept e e' -> lenZ (ec_ut e') = ec_steps e' -> ec_buffer e' = ec_buffer e -> inv e -> inv e'.
Proof.
  intros (K1 & K2 & K3 & K4 & K5 & K6 & K7 & K8 & K9 & K10 & K11 & K12) L B [I1 I2 I3 I4 I5 I6 I7].
  constructor; rewrite ?K2, ?K3, ?K6, ?K8, ?K11, ?K12, ?B; try assumption. rewrite <- K6. exact L.
Qed.
Lemma control_len (e e' : ec T) g x draws u : inv e -> ec_control e g x draws = Ok (u, e') -> lenZ (ec_ut e') = ec_steps e'.
Proof.
  intros I C. pose proof (control_dec _ _ _ _ _ _ C) as (e1 & tr & to & ed & rh & H). cbn zeta in H.
  destruct H as (C1 & H2 & R & S & N0 & LA & G & O & -> & A & _). cbn [set_ut ec_ut ec_steps].
  pose proof (config_kept _ _ _ C1) as (_ & D & Hh & _ & _ & St & _). cbn [set_pose ec_dt ec_horizon ec_steps] in D, Hh, St.
  pose proof (steps_range _ _ _ (i_steps _ I)).
  set (all := map (shifted e1) (m_cols to)) in *. pose proof (skip_len all (ec_steps e1) ltac:(lia)) as SL.
  set (xt := skipn _ all) in *. clearbody xt all. unfold lenZ at 1. rewrite update_len, SL.
  unfold co_solve in O. rewrite D, Hh, (i_steps _ I) in O. cbn [bind] in O. apply co_loop_len in O. cbn [length] in O.
  rewrite O. lia.
Qed.
Lemma control_buffer (e e' : ec T) g x draws u : ec_control e g x draws = Ok (u, e') ->
  ec_buffer e' = ec_buffer e /\ ec_pose e' = x /\ ec_target e' = ec_target e.
Proof.
  intros C. pose proof (control_dec _ _ _ _ _ _ C) as (e1 & tr & to & ed & rh & H). cbn zeta in H.
  destruct H as (C1 & _ & _ & _ & _ & _ & _ & _ & -> & _).
  destruct (config_same _ _ _ C1) as (ph & bs & -> & L & K). repeat split.
Qed.
Lemma append_size (b : buffer T) c : b_size (append b c) = b_size b /\ b_batch (append b c) = b_batch b.
Proof. unfold append. destruct (_ <? _)%Z; split; reflexivity. Qed.
Lemma call_inv e e' : call e e' -> inv e -> inv e'.
Proof.
  intros C I. pose proof (call_kept _ _ C) as K. destruct C as [e g x draws u e' C|e x|e t|e g e' C].
  - eapply inv_intro; [exact K| |apply (control_buffer _ _ _ _ _ _ C)|exact I]. eapply control_len; eassumption.
  - destruct I as [I1 I2 I3 I4 I5 I6 (hist & I7 & I8)]. constructor; try assumption. cbn [addStateMemory set_buffer ec_buffer].
    destruct (append_size (ec_buffer e) (to_col x)) as [-> ->]. exists (hist ++ [x]). split; [exact I7|].
    rewrite map_app, fold_left_app, <- I8. reflexivity.
  - destruct I as [I1 I2 I3 I4 I5 I6 I7]. constructor; assumption.
  - destruct (config_same _ _ _ C) as (ph & bs & -> & L & Kk). eapply inv_intro; [exact K| |reflexivity|exact I].
    apply (i_len _ I).
Qed.
Lemma history_inv e e' : history e e' -> inv e -> inv e'.
Proof. induction 1; [auto|]. intros I. eapply call_inv; eauto. Qed.
Lemma reachable_inv e : reachable e -> inv e.
Proof.
  intros (e0 & (m & dt & h & r & w & nb & size & batch & Ri & umin & umax & (H1 & H2 & H3) & C) & H).
  eapply history_inv; [exact H|]. eapply ctor_inv; [| |exact C]; assumption.
Qed.

(** ** C55 *)
(** Not below the lower and not above the upper limit; for numbers that is being between them. *)
Definition clamped (lo hi c : T) : Prop := nlt c lo = false /\ nlt hi c = false.
Definition clamped3 (lo hi u : vec3 T) : Prop :=
  clamped (v0 lo) (v0 hi) (v0 u) /\ clamped (v1 lo) (v1 hi) (v1 u) /\ clamped (v2 lo) (v2 hi) (v2 u).
Lemma clamp_clamped (v lo hi : T) : nlt lo lo = false -> nlt hi hi = false -> nlt hi lo = false -> clamped lo hi (fclamp v lo hi).
Proof.
  intros H1 H2 H3. unfold fclamp, clamped. destruct (nlt v lo) eqn:E; [split; assumption|].
  destruct (nlt hi v) eqn:E'; split; assumption.
Qed.
Definition proper (lo hi : vec3 T) : Prop :=
  (nlt (v0 lo) (v0 lo) = false /\ nlt (v0 hi) (v0 hi) = false /\ nlt (v0 hi) (v0 lo) = false) /\
  (nlt (v1 lo) (v1 lo) = false /\ nlt (v1 hi) (v1 hi) = false /\ nlt (v1 hi) (v1 lo) = false) /\
  (nlt (v2 lo) (v2 lo) = false /\ nlt (v2 hi) (v2 hi) = false /\ nlt (v2 hi) (v2 lo) = false).
Lemma update_clamped (e : ec T) xt rhot : proper (ec_umin e) (ec_umax e) ->
  Forall (clamped3 (ec_umin e) (ec_umax e)) (new_controls e xt rhot).
Proof.
  intros ((A1 & A2 & A3) & (B1 & B2 & B3) & (C1 & C2 & C3)). unfold new_controls. apply Forall_forall. intros u H.
  apply in_map_iff in H. destruct H as ([x rho] & <- & _). unfold new_control, clamped3. cbn [v0 v1 v2].
  repeat split; apply clamp_clamped; assumption.
Qed.
Lemma control_clamped (e e' : ec T) g x draws u : proper (ec_umin e) (ec_umax e) -> ec_control e g x draws = Ok (u, e') ->
  Forall (clamped3 (ec_umin e) (ec_umax e)) (ec_ut e') /\ clamped3 (ec_umin e) (ec_umax e) u.
Proof.
  intros P C. pose proof (control_dec _ _ _ _ _ _ C) as (e1 & tr & to & ed & rh & H). cbn zeta in H.
  destruct H as (C1 & H2 & R & S & N0 & LA & G & O & -> & A & _). cbn [set_ut ec_ut].
  pose proof (config_kept _ _ _ C1) as (_ & _ & _ & _ & _ & _ & _ & _ & Um & UM & _). cbn [set_pose ec_umin ec_umax] in Um, UM.
  rewrite <- Um, <- UM in P |- *. match goal with |- Forall ?Q ?l /\ _ => assert (F : Forall Q l) by (apply update_clamped; exact P) end.
  split; [exact F|]. apply (col_at_ok _ 0) in A. apply nth_error_In in A. rewrite Forall_forall in F. apply F. exact A.
Qed.
Lemma history_clamped (e0 e : ec T) : Forall (fun u => u = zero3) (ec_ut e0) -> proper (ec_umin e0) (ec_umax e0) -> history e0 e ->
  Forall (fun u => u = zero3) (ec_ut e) \/ Forall (clamped3 (ec_umin e0) (ec_umax e0)) (ec_ut e).
Proof.
  intros Z P. induction 1 as [|e1 e2 H IH C]; [left; exact Z|].
  pose proof (history_kept _ _ H) as (_ & _ & _ & _ & _ & _ & _ & _ & Um & UM & _).
  destruct C as [e g x draws u e' C|e x|e t|e g e' C]; try exact IH.
  - right. rewrite <- Um, <- UM in P |- *. apply (control_clamped _ _ _ _ _ _ P C).
  - destruct (config_same _ _ _ C) as (ph & bs & -> & L & Kk). exact IH.
Qed.

(** ** C56: where an invalid_argument can come from *)
Lemma bind_throw {A B} (m : res A) (k : A -> res B) x : bind m k = Throw x -> m = Throw x \/ exists a, m = Ok a /\ k a = Throw x.
Proof. destruct m; cbn [bind]; intros H; try discriminate; [eauto|injection H as ->; auto]. Qed.
Lemma u32_no_throw (x : T) ex : to_u32 x <> Throw ex.
Proof. unfold to_u32. destruct (ntrunc x); [|discriminate]. destruct (_ && _)%bool; discriminate. Qed.
Lemma rk4_loop_throw {U} dt f n : forall x (ut : list U), rk4_loop n dt f x ut = Throw EInvalidArgument ->
  exists y u, In u ut /\ f y u = Throw EInvalidArgument.
Proof.
  induction n as [|n IH]; intros x ut; cbn [rk4_loop]; [discriminate|]. destruct ut as [|u ut]; [discriminate|].
  intros H. apply bind_throw in H. destruct H as [H|(y & _ & H)].
  - unfold rk4_step in H. repeat (apply bind_throw in H; destruct H as [H|(? & _ & H)]; [eexists _, u; split; [left; reflexivity|exact H]|]).
    discriminate.
  - cbn zeta in H. apply bind_throw in H. destruct H as [H|(y' & _ & H)]; [|discriminate].
    destruct (IH _ _ H) as (z & v & I & F). exists z, v. split; [right; exact I|exact F].
Qed.
Lemma fetch_throw (m : list (Z * list T)) rows ks : fetch m rows ks <> Throw EInvalidArgument.
Proof.
  induction ks as [|k ks IH]; cbn [fetch]; [discriminate|]. intros H.
  apply bind_throw in H. destruct H as [H|(v & _ & H)].
  { destruct (mem_at_throw m k) as [(w & E)|E]; rewrite E in H; discriminate. }
  apply bind_throw in H. destruct H as [H|(w & _ & H)].
  { unfold check_col in H. destruct (_ =? _)%Z; discriminate. }
  apply bind_throw in H. destruct H as [H|(vs & _ & H)]; [exact (IH H)|discriminate].
Qed.
Lemma sample_throw (b : buffer T) draws xt : sampleMemory b draws xt <> Throw EInvalidArgument.
Proof.
  unfold sampleMemory. assert (Cp : forall cs, copy_tail cs xt <> Throw EInvalidArgument) by (intros cs; unfold copy_tail; destruct (m_cols xt); discriminate).
  destruct (b_mem b) eqn:M; [discriminate|]. rewrite <- M. destruct (_ <=? _)%Z.
  - intros H. apply bind_throw in H. destruct H as [H|(cs & _ & H)]; [exact (fetch_throw _ _ _ H)|exact (Cp _ H)].
  - destruct (_ <? _)%Z; [discriminate|]. intros H. apply bind_throw in H. destruct H as [H|(cs & _ & H)]; [exact (fetch_throw _ _ _ H)|exact (Cp _ H)].
Qed.
Lemma col_throw {A} (l : list A) i : col_at l i <> Throw EInvalidArgument.
Proof. unfold col_at. destruct (nthZ l i); discriminate. Qed.
Lemma co_loop_throw {U} dt func (fdx : vec3 T -> U -> mat3 T) i : forall rho xt ut edx bdx acc,
  co_loop i dt func fdx rho xt ut edx bdx acc <> Throw EInvalidArgument.
Proof.
  induction i as [|i IH]; intros rho xt ut edx bdx acc H; cbn [co_loop] in H; [discriminate|].
  do 4 (apply bind_throw in H; destruct H as [H|(? & _ & H)]; [exact (col_throw _ _ H)|]). exact (IH _ _ _ _ _ _ H).
Qed.
Lemma config_throw (e : ec T) g : configTarget e g <> Throw EInvalidArgument.
Proof.
  unfold configTarget. destruct (_ && _)%bool; [discriminate|]. intros H.
  do 2 (apply bind_throw in H; destruct H as [H|(? & _ & H)]; [exact (u32_no_throw _ _ H)|]).
  apply bind_throw in H. destruct H as [H|(? & _ & H)]; [unfold phi_points in H; destruct (_ <? _)%Z; discriminate|].
  apply bind_throw in H. destruct H as [H|(? & _ & H)]; [unfold spatialCoeff in H; destruct (_ <? _)%Z; discriminate|discriminate].
Qed.
Lemma solve_throw {U} dt f x (ut : list U) h : rk4_solve dt f x ut h = Throw EInvalidArgument ->
  exists y u, In u ut /\ f y u = Throw EInvalidArgument.
Proof.
  intros H. unfold rk4_solve in H. apply bind_throw in H. destruct H as [H|(n & _ & H)]; [destruct (u32_no_throw _ _ H)|].
  exact (rk4_loop_throw _ _ _ _ _ H).
Qed.
Lemma control_throw (e : ec T) g x draws : ec_control e g x draws = Throw EInvalidArgument ->
  exists y u, (In u (ec_ut e) \/ u = zero3) /\ rb_f (pl_robot (ec_model e)) y u = Throw EInvalidArgument.
Proof.
  intros H. unfold ec_control in H. apply bind_throw in H. destruct H as [H|(e1 & C & H)]; [destruct (config_throw _ _ H)|].
  destruct (config_same _ _ _ C) as (ph & bs & E1 & L & K).
  apply bind_throw in H. destruct H as [H|(ut & Sh & H)].
  { unfold shift_controls in H. destruct (ec_ut e1) as [|? [|? ?]]; discriminate. }
  assert (EU : ec_ut e1 = ec_ut e) by (subst e1; reflexivity). rewrite EU in Sh.
  apply bind_throw in H. destruct H as [H|(traj & _ & H)].
  { destruct (solve_throw _ _ _ _ _ H) as (y & u & I & F). exists y, u. split; [|subst e1; exact F].
    destruct (ec_ut e) as [|a [|b l]]; try discriminate. cbn [shift_controls] in Sh. injection Sh as <-.
    change (b :: l ++ [zero3]) with ((b :: l) ++ [zero3]) in I. apply in_app_or in I. destruct I as [I|[I|[]]]; [left; right; exact I|right; auto]. }
  apply bind_throw in H. destruct H as [H|(total & _ & H)]; [destruct (sample_throw _ _ _ H)|].
  destruct (_ || _)%bool; [discriminate|].
  apply bind_throw in H. destruct H as [H|(edx & _ & H)]; [unfold gradErgodicMetric in H; destruct (ec_phik e1); discriminate|].
  apply bind_throw in H. destruct H as [H|(rh & _ & H)].
  { unfold co_solve in H. apply bind_throw in H. destruct H as [H|(n & _ & H)]; [destruct (u32_no_throw _ _ H)|destruct (co_loop_throw _ _ _ _ _ _ _ _ _ _ H)]. }
  apply bind_throw in H. destruct H as [H|(us & _ & H)].
  { unfold updateControl in H. destruct (combine _ _); [discriminate|]. destruct (clamps_defined _); discriminate. }
  apply bind_throw in H. destruct H as [H|(u & _ & H)]; [destruct (col_throw _ _ H)|discriminate].
Qed.
(** Inverted limits *)
Lemma control_inverted (e : ec T) g x draws :
  nlt (v0 (ec_umax e)) (v0 (ec_umin e)) = true \/ nlt (v1 (ec_umax e)) (v1 (ec_umin e)) = true \/ nlt (v2 (ec_umax e)) (v2 (ec_umin e)) = true ->
  is_ok (ec_control e g x draws) = false.
Proof.
  intros H. destruct (ec_control e g x draws) as [[u e']| | |] eqn:C; try reflexivity. exfalso.
  destruct (control_dec _ _ _ _ _ _ C) as (e1 & tr & to & ed & rh & D). cbn zeta in D. destruct D as (C1 & _ & _ & _ & _ & _ & _ & _ & _ & _ & D).
  destruct (config_same _ _ _ C1) as (ph & bs & -> & _). unfold clamps_defined, clampable in D. cbn [set_domain set_pose ec_umin ec_umax] in D.
  destruct H as [H|[H|H]]; rewrite H in D; cbn [negb andb] in D; rewrite ?andb_false_r in D; discriminate.
Qed.
Lemma simple_throw_gen (x u : vec3 T) : simple_f x u = Throw EInvalidArgument -> almost_equal (v1 u) n0 = false.
Proof. unfold simple_f. destruct (almost_equal _ _); [discriminate|reflexivity]. Qed.
(** A controller of the cart whose lateral limits coincide. *)
Lemma cart_throw (e0 e : ec T) : Forall (fun u => u = zero3) (ec_ut e0) -> proper (ec_umin e0) (ec_umax e0) ->
  ec_model e0 = cart_plant -> almost_equal n0 n0 = true -> history e0 e ->
  (exists g x draws, ec_control e g x draws = Throw EInvalidArgument) \/ optTraj e = Throw EInvalidArgument \/ ec_path e = Throw EInvalidArgument ->
  exists u, In u (ec_ut e) /\ clamped3 (ec_umin e0) (ec_umax e0) u /\ almost_equal (v1 u) n0 = false.
Proof.
  intros Z P M A H Th. pose proof (history_kept _ _ H) as (KM & _). rewrite M in KM.
  assert (Q : exists y u, (In u (ec_ut e) \/ u = zero3) /\ rb_f (pl_robot (ec_model e)) y u = Throw EInvalidArgument).
  { destruct Th as [(g & x & dr & Th)|[Th|Th]].
    - exact (control_throw _ _ _ _ Th).
    - destruct (solve_throw _ _ _ _ _ Th) as (y & u & I & F). eauto.
    - unfold ec_path in Th. apply bind_throw in Th. destruct Th as [Th|(tr & _ & Th)]; [|destruct (_ <? _)%Z; discriminate].
      destruct (solve_throw _ _ _ _ _ Th) as (y & u & I & F). eauto. }
  destruct Q as (y & u & I & F). rewrite KM in F. apply simple_throw_gen in F.
  assert (NZ : u <> zero3) by (intros ->; cbn [zero3 v1] in F; congruence).
  destruct I as [I|I]; [|contradiction]. exists u. split; [exact I|]. split; [|exact F].
  destruct (history_clamped _ _ Z P H) as [G|G]; rewrite Forall_forall in G; specialize (G _ I); [contradiction|exact G].
Qed.

(** ** C57 *)
Lemma control_first_column (e : ec T) a b l g x draws : ec_control (set_ut e (a :: l)) g x draws = ec_control (set_ut e (b :: l)) g x draws.
Proof.
  unfold ec_control.
  assert (C : forall w, configTarget (set_pose (set_ut e (w :: l)) x) g = let* e1 := configTarget (set_pose e x) g in Ok (set_ut e1 (w :: l))).
  { intros w. unfold configTarget. cbn [set_pose set_ut ec_basis ec_resolution ec_target ec_phik].
    destruct (_ && _)%bool; [reflexivity|].
    destruct (axis_length _ (nsub (g_xmax g) (g_xmin g)) _); cbn [bind]; try reflexivity.
    destruct (axis_length _ (nsub (g_ymax g) (g_ymin g)) _); cbn [bind]; try reflexivity.
    destruct (phi_points _ _ _); cbn [bind]; try reflexivity.
    destruct (spatialCoeff _ _ _); reflexivity. }
  rewrite !C. destruct (configTarget _ _) as [e1| | |]; cbn [bind]; try reflexivity.
Qed.
Lemma idle_kept e e' : idle e e' -> ec_model e' = ec_model e /\ ec_dt e' = ec_dt e /\ ec_horizon e' = ec_horizon e /\ ec_pose e' = ec_pose e /\ ec_ut e' = ec_ut e.
Proof.
  induction 1 as [|e1 e2 H IH C]; [repeat split|]. destruct C as [e1 x|e1 t|e1 g e2 C]; try exact IH.
  destruct (config_same _ _ _ C) as (ph & bs & -> & L & Kk). exact IH.
Qed.
Lemma c57_traj (e e' e2 : ec T) g x draws u : ec_control e g x draws = Ok (u, e') -> idle e' e2 ->
  nth_error (ec_ut e2) 0 = Some u /\ ec_ut e2 = ec_ut e' /\
  optTraj e2 = rk4_solve (ec_dt e) (rb_f (pl_robot (ec_model e))) x (ec_ut e2) (ec_horizon e).
Proof.
  intros C I. destruct (idle_kept _ _ I) as (A1 & A2 & A3 & A4 & A5).
  destruct (control_kept _ _ _ _ _ _ C) as (B1 & B2 & B3 & _). destruct (control_buffer _ _ _ _ _ _ C) as (_ & B4 & _).
  split; [|split; [exact A5|]].
  - rewrite A5. pose proof (control_dec _ _ _ _ _ _ C) as (e1 & tr & to & ed & rh & H). cbn zeta in H.
    destruct H as (_ & _ & _ & _ & _ & _ & _ & _ & -> & A & _). exact (col_at_ok _ 0 _ A).
  - unfold optTraj. congruence.
Qed.
Lemma rk4_loop_len {U} dt (f : vec3 T -> U -> res (vec3 T)) n : forall x ut xt, rk4_loop n dt f x ut = Ok xt -> length xt = n.
Proof.
  induction n as [|n IH]; intros x ut xt; cbn [rk4_loop]; [intros E; injection E as <-; reflexivity|].
  destruct ut as [|u ut]; [discriminate|]. destruct (rk4_step _ _ _ _); cbn [bind]; try discriminate.
  destruct (rk4_loop _ _ _ _ _) eqn:E; cbn [bind]; try discriminate. intros H. injection H as <-. cbn [length]. f_equal. eapply IH; eassumption.
Qed.
Lemma path_ok (e : ec T) tr : inv e -> optTraj e = Ok tr ->
  ec_path e = Ok (map (fun x => mkPose (v0 x) (v1 x) (setRPY n0 n0 (normalize_angle_PI (v2 x)))) tr).
Proof.
  intros I O. unfold ec_path. rewrite O. cbn [bind]. unfold optTraj, rk4_solve in O. rewrite (i_steps _ I) in O. cbn [bind] in O.
  apply rk4_loop_len in O. pose proof (steps_range _ _ _ (i_steps _ I)). unfold lenZ. rewrite O.
  destruct (Z.ltb_spec (ec_steps e) (Z.of_nat (Z.to_nat (ec_steps e)))); [lia|reflexivity].
Qed.
Lemma path_fails (e : ec T) : is_ok (optTraj e) = false -> is_ok (ec_path e) = false.
Proof. unfold ec_path. destruct (optTraj e); cbn; auto. discriminate. Qed.

(** ** C62 *)
Lemma zero_steps (e : ec T) g x draws : inv e -> ec_steps e = 0%Z ->
  is_ok (ec_control e g x draws) = false /\ (is_ok (configTarget (set_pose e x) g) = true -> ec_control e g x draws = Throw EArma).
Proof.
  intros I S. pose proof (i_len _ I) as L. rewrite S in L. unfold ec_control.
  destruct (configTarget (set_pose e x) g) as [e1| | |] eqn:C; cbn [bind is_ok]; try (split; [reflexivity|discriminate]).
  destruct (config_same _ _ _ C) as (ph & bs & E1 & _ & _).
  assert (EU : ec_ut e1 = []). { subst e1. cbn [set_domain set_pose ec_ut]. destruct (ec_ut e); [reflexivity|unfold lenZ in L; cbn [length] in L; lia]. }
  rewrite EU. split; reflexivity.
Qed.
Lemma ctor_steps m dt h r w nb size batch Ri umin umax n : num_steps dt h = Ok n -> (0 <= nb)%Z -> (nb * nb < 2 ^ 31)%Z ->
  (n = 1%Z -> ec_ctor m dt h r w nb size batch Ri umin umax = Throw EInvalidArgument) /\
  (n <> 1%Z -> exists e, ec_ctor m dt h r w nb size batch Ri umin umax = Ok e /\ ec_steps e = n /\ lenZ (ec_ut e) = n).
Proof.
  intros N NB NB2. unfold ec_ctor. rewrite N. cbn [bind]. rewrite ctor_ok by assumption. cbn [bind].
  pose proof (steps_range _ _ _ N). destruct (Z.eqb_spec n 1) as [->|Hn].
  - split; [reflexivity|congruence].
  - split; [congruence|]. intros _. eexists. split; [reflexivity|]. cbn [ec_steps ec_ut]. split; [reflexivity|].
    unfold lenZ. rewrite repeat_length. lia.
Qed.
End Generic.
