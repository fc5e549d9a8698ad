(** Proofs about the exploration loop. *)
From Coq Require Import ZArith List Bool Lia.
From Flocq Require Import IEEE754.BinarySingleNaN.
From Verif Require Import Outcome Num Float64 GridModel CollisionModel NumericsModel BufferModel BasisModel RobotModel DwaModel ErgodicModel
  ExplorationModel SpecDwa SpecExploration DwaProofs ErgodicProofs.
Import ListNotations.
Local Open Scope Z_scope.
Ltac Zify.zify_post_hook ::= idtac.

Section Any.
Context {T : Type} {NT : Num T}.
Notation loop := (loop T). Notation seen := (seen T). Notation output := (output T). Notation event := (event T).

(** Still following after the counter was advanced *)
Definition still (n : node T) (l : loop) : bool := lp_follow l && negb (u32 (lp_i l + 1) =? dw_steps (nd_dwa n)).
Definition count (l : loop) : Z := if lp_follow l then u32 (lp_i l + 1) else lp_i l.

Inductive plans (n : node T) (l : loop) (o : seen) : ec T -> vec3 T -> list output -> Prop :=
  | plans_no : still n l = true -> plans n l o (lp_ec l) (lp_u l) []
  | plans_yes u e p : still n l = false -> ec_control (lp_ec l) (se_plan o) (lp_pose l) (se_draws o) = Ok (u, e) -> ec_path e = Ok p ->
      plans n l o e u [Traj p].
Inductive checks (n : node T) (l : loop) (o : seen) (e : ec T) (u : vec3 T) : loop -> list output -> Prop :=
  | checks_pass : passes n (se_valid o) (lp_pose l) u ->
      checks n l o e u (mkLoop e u (lp_pose l) (lp_known l) (still n l) (count l)) []
  | checks_again b v : hits n (se_valid o) (lp_pose l) u -> still n l = true ->
      dwa_control (nd_dwa n) (se_dwa o) (lp_pose l) (se_vb o) u = Ok (b, v) ->
      checks n l o e u (mkLoop e v (lp_pose l) (lp_known l) false (count l)) []
  | checks_found ref v p : hits n (se_valid o) (lp_pose l) u -> still n l = false -> optTraj e = Ok ref ->
      dwa_follow (nd_dwa n) (se_dwa o) (lp_pose l) (se_vb o) ref (ec_dt e) = Ok (true, v) ->
      constTwistPath (lp_pose l) v (dw_dt (nd_dwa n)) (dw_horizon (nd_dwa n)) = Ok p ->
      checks n l o e u (mkLoop e v (lp_pose l) (lp_known l) true 0) [DwaTraj p]
  | checks_nothing ref v : hits n (se_valid o) (lp_pose l) u -> still n l = false -> optTraj e = Ok ref ->
      dwa_follow (nd_dwa n) (se_dwa o) (lp_pose l) (se_vb o) ref (ec_dt e) = Ok (false, v) ->
      checks n l o e u (mkLoop e v (lp_pose l) (lp_known l) false (count l)) [].

Lemma val_steps_iff (n : node T) k : num_steps (nd_val_dt n) (nd_val_horizon n) = Ok k -> val_steps n (Z.to_nat k).
Proof.
  intros H. pose proof (steps_range _ _ _ H) as R. unfold val_steps. rewrite Z2Nat.id by lia. split; [lia|].
  unfold num_steps, to_u32 in H. destruct (ntrunc _); [|discriminate]. destruct (_ && _)%bool; [|discriminate].
  injection H as ->. reflexivity.
Qed.
Lemma validate_cases n g x u b : validate_control (nd_collision n) g x u (nd_val_dt n) (nd_val_horizon n) = Ok b ->
  if b then passes n g x u else hits n g x u.
Proof.
  unfold validate_control. destruct (num_steps _ _) as [k| | |] eqn:K; cbn [bind]; try discriminate. intros H.
  apply val_steps_iff in K. pose proof (validate_rollout (nd_collision n) g u (nd_val_dt n) (Z.to_nat k) x) as [A B].
  destruct b; exists (Z.to_nat k); (split; [exact K|]); [apply A|apply B]; exact H.
Qed.
Lemma body_inv n l o l' out : body n l o = Ok (l', out) ->
  let x := stage_lookup l (se_lookup o) in
  (se_recv o && lp_known x = false /\ l' = x /\ out = []) \/
  (se_recv o && lp_known x = true /\ exists e u out1 out2, plans n x o e u out1 /\ checks n x o e u l' out2 /\
    out = out1 ++ out2 ++ [Cmd (lp_u l')]).
Proof.
  unfold body. intros H. cbv zeta. set (x := stage_lookup l (se_lookup o)) in *.
  destruct (se_recv o && lp_known x) eqn:A; [right|left; injection H as <- <-; auto]. split; [reflexivity|].
  assert (P : exists e u out1, plans n x o e u out1 /\
    stage_plan (stage_count n x) o = Ok (mkLoop e u (lp_pose x) (lp_known x) (still n x) (count x), out1)).
  { unfold stage_plan, stage_count, count, still in *. destruct (lp_follow x) eqn:F; cbn [lp_follow lp_ec lp_u lp_pose lp_known lp_i andb] in *.
    - destruct (_ =? _) eqn:C; cbn [negb] in *.
      + destruct (ec_control _ _ _ _) as [[u e]| | |] eqn:K; cbn [bind] in *; try discriminate.
        destruct (ec_path e) as [p| | |] eqn:Q; cbn [bind] in *; try discriminate.
        exists e, u, [Traj p]. split; [|reflexivity]. apply plans_yes; auto. unfold still. rewrite F, C. reflexivity.
      + exists (lp_ec x), (lp_u x), []. split; [|reflexivity]. apply plans_no. unfold still. rewrite F, C. reflexivity.
    - rewrite F in *. destruct (ec_control _ _ _ _) as [[u e]| | |] eqn:K; cbn [bind] in *; try discriminate.
      destruct (ec_path e) as [p| | |] eqn:Q; cbn [bind] in *; try discriminate.
      exists e, u, [Traj p]. split; [|reflexivity]. apply plans_yes; auto. unfold still. rewrite F. reflexivity. }
  destruct P as (e & u & out1 & P1 & P2). rewrite P2 in H. cbn [bind] in H. exists e, u, out1.
  unfold stage_check in H. cbn [lp_follow lp_ec lp_u lp_pose lp_known lp_i] in H.
  destruct (validate_control _ _ _ _ _ _) as [[|]| | |] eqn:V; cbn [bind] in H; try discriminate; apply validate_cases in V.
  - injection H as <- <-. exists []. split; [exact P1|]. split; [|reflexivity]. apply checks_pass, V.
  - destruct (still n x) eqn:S.
    + destruct (dwa_control _ _ _ _ _) as [[b v]| | |] eqn:D; cbn [bind] in H; try discriminate.
      injection H as <- <-. exists []. split; [exact P1|]. split; [|reflexivity]. eapply checks_again; eauto.
    + destruct (optTraj e) as [ref| | |] eqn:O; cbn [bind] in H; try discriminate.
      destruct (dwa_follow _ _ _ _ _ _) as [[[|] v]| | |] eqn:D; cbn [bind] in H; try discriminate.
      * destruct (constTwistPath _ _ _ _) as [p| | |] eqn:C; cbn [bind] in H; try discriminate.
        injection H as <- <-. exists [DwaTraj p]. split; [exact P1|]. split; [|reflexivity]. eapply checks_found; eauto.
      * injection H as <- <-. exists []. split; [exact P1|]. split; [|reflexivity]. eapply checks_nothing; eauto.
Qed.

(** ** What the ergodic controller leaves alone *)
Lemma config_buffer (e e' : ec T) g : configTarget e g = Ok e' -> ec_buffer e' = ec_buffer e /\ ec_pose e' = ec_pose e.
Proof.
  unfold configTarget. destruct (_ && _)%bool; [intros H; injection H as <-; split; reflexivity|].
  destruct (axis_length _ _ _); cbn [bind]; try discriminate. destruct (axis_length _ _ _); cbn [bind]; try discriminate.
  destruct (phi_points _ _ _); cbn [bind]; try discriminate. destruct (spatialCoeff _ _ _); cbn [bind]; try discriminate.
  intros H; injection H as <-. split; reflexivity.
Qed.
Lemma control_buffer (e e' : ec T) g x draws u : ec_control e g x draws = Ok (u, e') -> ec_buffer e' = ec_buffer e /\ ec_pose e' = x.
Proof.
  unfold ec_control. destruct (configTarget _ g) as [e1| | |] eqn:C; cbn [bind]; try discriminate. apply config_buffer in C.
  destruct (shift_controls _); cbn [bind]; try discriminate. destruct (rk4_solve _ _ _ _ _); cbn [bind]; try discriminate.
  destruct (sampleMemory _ _ _); cbn [bind]; try discriminate. cbv zeta. destruct (_ || _)%bool; [discriminate|].
  destruct (gradErgodicMetric _ _ _); cbn [bind]; try discriminate. destruct (co_solve _ _ _ _ _ _ _ _ _); cbn [bind]; try discriminate.
  destruct (updateControl _ _ _); cbn [bind]; try discriminate.
  destruct (col_at _ _); cbn [bind]; try discriminate. intros H; injection H as <- <-. exact C.
Qed.

(** ** Executions *)
Lemma body_pose n l o l' out : body n l o = Ok (l', out) ->
  lp_pose l' = lp_pose (stage_lookup l (se_lookup o)) /\ lp_known l' = lp_known (stage_lookup l (se_lookup o)) /\
  ec_buffer (lp_ec l') = ec_buffer (lp_ec (stage_lookup l (se_lookup o))).
Proof.
  intros H. apply body_inv in H. cbv zeta in H. set (x := stage_lookup l (se_lookup o)) in *. destruct H as [(_ & -> & _)|(_ & e & u & o1 & o2 & P & C & _)]; [auto|].
  assert (B : ec_buffer e = ec_buffer (lp_ec x)). { destruct P as [|u e p S K]; [reflexivity|]. apply control_buffer in K. apply K. }
  destruct C; cbn; auto.
Qed.
Lemma lookup_pose l o : lp_pose (stage_lookup l o) = last_pose (lp_pose l) [o].
Proof. destruct o; reflexivity. Qed.
Lemma exec_pose n s l evs s' l' : exec n s l evs s' l' ->
  lp_pose l' = last_pose (lp_pose l) (map ev_lookup evs) /\
  ec_buffer (lp_ec l') = fold_left append (map to_col (looked_up (map ev_lookup evs))) (ec_buffer (lp_ec l)) /\
  lp_known l' = (lp_known l || existsb (fun o => match o with Some _ => true | None => false end) (map ev_lookup evs)).
Proof.
  induction 1 as [|s l e s1 evs s' l' I P X IH]; [cbn; rewrite orb_false_r; auto|].
  destruct I as [s lk draws t early l1 l2 l3 l4 l5 lx ly sx out C0 C1 C2 C3 C4 C5 B]. cbn [ev_pre ev_post ev_lookup map] in *. subst lx.
  apply body_pose in B. cbn [se_lookup view] in B. destruct B as (B1 & B2 & B3). destruct IH as (I1 & I2 & I3).
  rewrite I1, I2, I3, B1, B2, B3. unfold last_pose, looked_up. cbn [fold_left flat_map existsb]. destruct lk as [tf|]; cbn; [|auto].
  split; [reflexivity|]. split; [reflexivity|]. rewrite orb_true_r. reflexivity.
Qed.
Lemma exec_app n s l e1 : forall s' l' e2, exec n s l (e1 ++ e2) s' l' <-> exists s1 l1, exec n s l e1 s1 l1 /\ exec n s1 l1 e2 s' l'.
Proof.
  revert s l. induction e1 as [|e e1 IH]; intros s l s' l' e2.
  - cbn [app]. split; [intros H; exists s, l; split; [constructor|exact H]|]. intros (s1 & l1 & H & K). inversion H; subst. exact K.
  - cbn [app]. split.
    + intros H. inversion H as [|? ? ? sa ? ? ? I P X]; subst. apply IH in X. destruct X as (s1 & l1 & X1 & X2).
      exists s1, l1. split; [econstructor; eauto|exact X2].
    + intros (s1 & l1 & H & K). inversion H as [|? ? ? sa ? ? ? I P X]; subst. econstructor; eauto. apply IH. eauto.
Qed.
(** An iteration of an execution, with the executions before and after it *)
Lemma exec_split n s l evs s' l' k e : exec n s l evs s' l' -> nth_error evs k = Some e ->
  exists s1 s2, exec n s l (firstn k evs) s1 (ev_pre e) /\ iteration n s1 e s2 /\ exec n s2 (ev_post e) (skipn (S k) evs) s' l'.
Proof.
  intros H K. assert (E : evs = firstn k evs ++ e :: skipn (S k) evs).
  { rewrite <- (firstn_skipn k evs) at 1. f_equal. clear H. revert evs K. induction k as [|k IH]; intros [|a l0] K; try discriminate.
    - injection K as ->. reflexivity.
    - cbn [skipn]. apply IH, K. }
  rewrite E in H. apply exec_app in H. destruct H as (s1 & l1 & H1 & H2). inversion H2 as [|? ? ? sa ? ? ? I P X]; subst.
  exists s1, sa. auto.
Qed.
Lemma iteration_body n s e s' : iteration n s e s' -> body n (ev_pre e) (ev_seen e) = Ok (ev_post e, ev_out e).
Proof. intros []. exact H5. Qed.
Lemma iteration_pose n s e s' : iteration n s e s' -> lp_pose (stage_lookup (ev_pre e) (ev_lookup e)) = ev_pose e.
Proof. intros I. apply iteration_body, body_pose in I. destruct I as (I & _). unfold ev_pose. rewrite I. reflexivity. Qed.

(** ** The callback thread *)
Fixpoint ends_in (w : write T) (l : list (write T)) : Prop := match l with [] => False | [x] => x = w | _ :: l => ends_in w l end.
Definition last_write (m : message T) : write T := match m with MMap _ => WRecv | MOdom v => WVw (v2 v) end.
(** The history [ms] of messages explains the shared state *)
Record explains (ms : list (message T)) (s : shared T) : Prop := {
  x_recv : sh_recv s = true -> exists m, In (MMap m) ms;
  x_done : map_processed ms s -> sh_recv s = true;
  x_todo : sh_todo s <> [] -> exists a m, ms = a ++ [m] /\ ends_in (last_write m) (sh_todo s) /\ (forall w, In w (sh_todo s) -> In w (writes_of m)) }.
Lemma explains_init : explains [] shared_init.
Proof.
  split; cbn; [discriminate| |congruence]. intros (a & m & b & E & _). destruct a; discriminate.
Qed.
Lemma explains_start ms s m : explains ms s -> sh_todo s = [] -> explains (ms ++ [m]) (mkShared (sh_grid s) (sh_recv s) (sh_vb s) (writes_of m)).
Proof.
  intros [A B C] E. split; cbn [sh_recv sh_todo].
  - intros R. destruct (A R) as [x I]. exists x. apply in_or_app. auto.
  - intros (a & x & b & Q & [N|N]); [|destruct m; discriminate]. cbn [sh_todo] in N. apply B.
    destruct (exists_last N) as (b' & y & ->). rewrite app_comm_cons, app_assoc in Q. apply app_inj_tail in Q. destruct Q as [Q _].
    exists a, x, b'. auto.
  - intros _. exists ms, m. split; [reflexivity|]. split; [destruct m; cbn; reflexivity|auto].
Qed.
Lemma ends_cons w x l : l <> [] -> ends_in w (x :: l) -> ends_in w l.
Proof. destruct l; [congruence|]. intros _ H. exact H. Qed.
Lemma explains_write ms s w rest : explains ms s -> sh_todo s = w :: rest -> explains ms (do_write w rest s).
Proof.
  intros [A B C] E. destruct C as (a & m & Q & W & I); [congruence|]. rewrite E in W, I. split; cbn [sh_recv sh_todo do_write].
  - intros R. destruct w; cbn [write_recv] in R; try (exact (A R)).
    specialize (I WRecv (or_introl eq_refl)). destruct m as [x|v]; cbn in I; [|intuition discriminate].
    exists x. rewrite Q. apply in_or_app. right. left. reflexivity.
  - intros (a' & x & b & Q' & N). cbn [sh_todo do_write] in N. destruct b as [|y b'].
    + destruct N as [N|N]; [congruence|]. rewrite Q in Q'. apply app_inj_tail in Q'. destruct Q' as [_ Q']. subst m rest. cbn in W.
      subst w. reflexivity.
    + assert (R : sh_recv s = true) by (apply B; exists a', x, (y :: b'); split; [exact Q'|left; discriminate]). rewrite R. destruct w; reflexivity.
  - intros N. exists a, m. split; [exact Q|]. split; [eapply ends_cons; eauto|]. intros z Z. apply I. right. exact Z.
Qed.
Lemma explains_callbacks ms s s' : callbacks ms s s' -> forall h, explains h s -> explains (h ++ ms) s'.
Proof.
  induction 1 as [s|m ms s s' E C IH|w rest ms s s' E C IH]; intros h X.
  - rewrite app_nil_r. exact X.
  - replace (h ++ m :: ms) with ((h ++ [m]) ++ ms) by (rewrite <- app_assoc; reflexivity). apply IH, explains_start; auto.
  - apply IH, explains_write; auto.
Qed.
Lemma recv_mono ms s s' : callbacks ms s s' -> sh_recv s = true -> sh_recv s' = true.
Proof. induction 1; intros R; auto. apply IHcallbacks. cbn. rewrite R. destruct w; reflexivity. Qed.
Lemma iteration_callbacks n s e s' : iteration n s e s' ->
  callbacks (ev_early e) s (mo_test (ev_at e)) /\ exists rest, callbacks rest (mo_test (ev_at e)) s' /\ ev_late e = rest.
Proof.
  intros []. cbn. split; [assumption|]. eexists. split; [|reflexivity].
  assert (A : forall a s1 s2, callbacks a s1 s2 -> forall b s3, callbacks b s2 s3 -> callbacks (a ++ b) s1 s3).
  { clear. induction 1; intros b s3 K; cbn [app]; [exact K|eapply cb_start; eauto|eapply cb_write; eauto]. }
  eapply A; [eassumption|]. eapply A; [eassumption|]. eapply A; [eassumption|]. eapply A; eassumption.
Qed.
Lemma explains_exec n s l evs s' l' : exec n s l evs s' l' -> forall h, explains h s -> explains (h ++ messages evs) s'.
Proof.
  induction 1 as [s l|s l e s1 evs s' l' I P X IH]; intros h E; [rewrite app_nil_r; exact E|].
  apply iteration_callbacks in I. destruct I as (C1 & rest & C2 & <-). unfold messages. cbn [flat_map]. rewrite app_assoc. apply IH.
  rewrite app_assoc. eapply explains_callbacks; [exact C2|]. eapply explains_callbacks; eauto.
Qed.
Lemma exec_recv n s l evs s' l' : exec n s l evs s' l' -> sh_recv s = true -> sh_recv s' = true.
Proof.
  induction 1 as [s l|s l e s1 evs s' l' I P X IH]; intros R; [exact R|]. apply IH. apply iteration_callbacks in I.
  destruct I as (C1 & rest & C2 & _). eapply recv_mono; [exact C2|]. eapply recv_mono; eauto.
Qed.

(** ** C63 *)
Lemma commands_app a b : commands (a ++ b) = commands a ++ @commands T b.
Proof. unfold commands. apply flat_map_app. Qed.
Lemma active_commands n x o e u out1 out2 l' : plans n x o e u out1 -> checks n x o e u l' out2 ->
  commands (out1 ++ out2 ++ [Cmd (lp_u l')]) = [lp_u l'].
Proof. intros [] []; reflexivity. Qed.
Lemma iteration_commands n s e s' : iteration n s e s' ->
  commands (ev_out e) = if sh_recv (mo_test (ev_at e)) && lp_known (ev_post e) then [lp_u (ev_post e)] else [].
Proof.
  intros I. apply iteration_body in I. pose proof (body_pose _ _ _ _ _ I) as (_ & K & _). apply body_inv in I. cbv zeta in I. rewrite K.
  change (sh_recv (mo_test (ev_at e))) with (se_recv (ev_seen e)).
  destruct I as [(A & _ & ->)|(A & ee & u & o1 & o2 & P & C & ->)]; rewrite A; [reflexivity|]. eapply active_commands; eauto.
Qed.
Lemma c63_before n ec0 t evs s l k e : exec n shared_init (loop_init ec0 t) evs s l -> nth_error evs k = Some e -> commands (ev_out e) <> [] ->
  (exists j e', (j <= k)%nat /\ nth_error evs j = Some e' /\ ev_lookup e' <> None) /\
  exists m, In (MMap m) (messages (firstn k evs) ++ ev_early e).
Proof.
  intros X K N. destruct (exec_split _ _ _ _ _ _ _ _ X K) as (s1 & s2 & X1 & I & X2).
  rewrite (iteration_commands _ _ _ _ I) in N. destruct (_ && _) eqn:A in N; [|congruence]. apply andb_true_iff in A. destruct A as [R KN].
  pose proof (explains_exec _ _ _ _ _ _ X1 [] explains_init) as E. cbn [app] in E. split.
  - pose proof (exec_pose _ _ _ _ _ _ X1) as (_ & _ & Q). cbn [loop_init lp_known orb] in Q.
    pose proof (body_pose _ _ _ _ _ (iteration_body _ _ _ _ I)) as (_ & KN' & _). rewrite KN in KN'. cbn in KN'.
    destruct (ev_lookup e) eqn:L; [exists k, e; split; [lia|]; split; [exact K|congruence]|].
    cbn [stage_lookup] in KN'. rewrite Q in KN'. symmetry in KN'. apply existsb_exists in KN'. destruct KN' as ([tf|] & In1 & ?); [|discriminate].
    apply in_map_iff in In1. destruct In1 as (e' & L' & In2). apply In_nth_error in In2. destruct In2 as [j J].
    assert (Lt : (j < k)%nat). { apply nth_error_Some_lt in J || (assert (j < length (firstn k evs))%nat by (apply nth_error_Some; congruence); rewrite firstn_length in *; lia). }
    exists j, e'. split; [lia|]. split; [|congruence]. rewrite <- J. clear - Lt. revert k evs Lt. induction j as [|j IH]; intros [|k] [|a evs] Lt; try lia; auto.
    cbn. apply IH. lia.
  - apply iteration_callbacks in I. destruct I as [C _]. eapply x_recv; [|exact R]. eapply explains_callbacks; eauto.
Qed.
Lemma c63_after n ec0 t evs1 s1 l1 evs2 s2 l2 e : exec n shared_init (loop_init ec0 t) evs1 s1 l1 -> exec n s1 l1 evs2 s2 l2 ->
  (exists e', In e' evs1 /\ ev_lookup e' <> None) -> map_processed (messages evs1) s1 -> In e evs2 -> length (commands (ev_out e)) = 1%nat.
Proof.
  intros X1 X2 (e' & I' & L') M I. pose proof (explains_exec _ _ _ _ _ _ X1 [] explains_init) as E. cbn [app] in E. apply (x_done _ _ E) in M.
  assert (KN : lp_known l1 = true).
  { apply exec_pose in X1. destruct X1 as (_ & _ & ->). apply orb_true_iff. right. apply existsb_exists. exists (ev_lookup e'). split; [apply in_map; exact I'|].
    destruct (ev_lookup e'); congruence. }
  apply In_nth_error in I. destruct I as [k K]. destruct (exec_split _ _ _ _ _ _ _ _ X2 K) as (sa & sb & Xa & It & Xb).
  rewrite (iteration_commands _ _ _ _ It). pose proof (exec_recv _ _ _ _ _ _ Xa M) as Ra. pose proof (iteration_callbacks _ _ _ _ It) as [Ca _].
  rewrite (recv_mono _ _ _ Ca Ra). pose proof (body_pose _ _ _ _ _ (iteration_body _ _ _ _ It)) as (_ & -> & _).
  apply exec_pose in Xa. destruct Xa as (_ & _ & Qa). rewrite KN in Qa. cbn in Qa. destruct (ev_lookup e) eqn:L; cbn [se_lookup ev_seen view stage_lookup lp_known]; unfold ev_seen, view; cbn [se_lookup]; rewrite L; cbn [stage_lookup lp_known]; [reflexivity|]. rewrite Qa. reflexivity.
Qed.

(** ** C64 *)
Lemma in_cmd n x o e u out1 out2 l' v : plans n x o e u out1 -> checks n x o e u l' out2 -> In (Cmd v) (out1 ++ out2 ++ [Cmd (lp_u l')]) -> v = lp_u l'.
Proof. intros [] [] I; cbn in I; repeat (destruct I as [I|I]); try discriminate; try contradiction; injection I as ->; reflexivity. Qed.
Lemma iteration_cases n s e s' v : iteration n s e s' -> In (Cmd v) (ev_out e) ->
  passes n (check_map e) (ev_pose e) v \/
  (exists vref b, dwa_control (nd_dwa n) (dwa_map e) (ev_pose e) (dwa_vb e) vref = Ok (b, v)) \/
  (exists ref dtr b, dwa_follow (nd_dwa n) (dwa_map e) (ev_pose e) (dwa_vb e) ref dtr = Ok (b, v)).
Proof.
  intros It I. pose proof (iteration_pose _ _ _ _ It) as Q. apply iteration_body in It. apply body_inv in It. cbv zeta in It.
  change (se_lookup (ev_seen e)) with (ev_lookup e) in It. set (x := stage_lookup (ev_pre e) (ev_lookup e)) in *.
  destruct It as [(_ & _ & O)|(_ & ee & u & o1 & o2 & P & C & O)]; rewrite O in I; [destruct I|].
  apply (in_cmd _ _ _ _ _ _ _ _ _ P C) in I. subst v. rewrite <- Q. destruct C; cbn [lp_u]; [left; assumption|right; left; eauto|right; right; eauto..].
Qed.

(** ** C65, C66 *)
Definition running (s : shared T) (l : loop) : Prop := sh_recv s = true /\ lp_known l = true.
Lemma running_active n s e s' : running s (ev_pre e) -> iteration n s e s' ->
  se_recv (ev_seen e) && lp_known (stage_lookup (ev_pre e) (ev_lookup e)) = true /\ running s' (ev_post e).
Proof.
  intros [R K] I. assert (L : lp_known (stage_lookup (ev_pre e) (ev_lookup e)) = true) by (destruct (ev_lookup e); auto).
  pose proof (iteration_callbacks _ _ _ _ I) as (C1 & rest & C2 & _). pose proof (recv_mono _ _ _ C1 R) as R1. split; [apply andb_true_iff; auto|].
  split; [eapply recv_mono; eauto|]. apply iteration_body, body_pose in I. destruct I as (_ & -> & _). exact L.
Qed.
(** What an iteration of a running node does, by whether it follows. *)
Lemma running_inv n s e s' : running s (ev_pre e) -> iteration n s e s' -> exists x, x = stage_lookup (ev_pre e) (ev_lookup e) /\ lp_pose x = ev_pose e /\
  lp_follow x = lp_follow (ev_pre e) /\ lp_i x = lp_i (ev_pre e) /\ lp_u x = lp_u (ev_pre e) /\
  exists ee u out1 out2, plans n x (ev_seen e) ee u out1 /\ checks n x (ev_seen e) ee u (ev_post e) out2 /\ ev_out e = out1 ++ out2 ++ [Cmd (lp_u (ev_post e))].
Proof.
  intros R It. destruct (running_active _ _ _ _ R It) as [A _]. eexists. split; [reflexivity|]. split; [eapply iteration_pose; eauto|].
  split; [destruct (ev_lookup e); reflexivity|]. split; [destruct (ev_lookup e); reflexivity|]. split; [destruct (ev_lookup e); reflexivity|].
  apply iteration_body, body_inv in It. cbv zeta in It. change (se_lookup (ev_seen e)) with (ev_lookup e) in It. rewrite A in It.
  destruct It as [(F & _)|(_ & It)]; [discriminate|exact It].
Qed.
Lemma still_planned n x o ee u out1 out2 l' e : plans n x o ee u out1 -> checks n x o ee u l' out2 -> ev_out e = out1 ++ out2 ++ [Cmd (lp_u l')] ->
  (still n x = false <-> planned e).
Proof.
  intros P C O. unfold planned. rewrite O. split.
  - intros F. destruct P as [S|v ee p S]; [congruence|]. exists p. left. reflexivity.
  - intros [p I]. destruct P as [S|]; [|assumption]. exfalso. destruct C; cbn in I; intuition congruence.
Qed.
Lemma not_following_plans n s e s' : running s (ev_pre e) -> lp_follow (ev_pre e) = false -> iteration n s e s' -> planned e.
Proof.
  intros R F It. destruct (running_inv _ _ _ _ R It) as (x & -> & Q & Fx & Ix & Ux & ee & u & o1 & o2 & P & C & O).
  apply (still_planned _ _ _ _ _ _ _ _ e P C O). unfold still. rewrite Fx, F. reflexivity.
Qed.
Lemma u32_small z : 0 <= z < two32 -> u32 z = z.
Proof. intros H. unfold u32. apply Z.mod_small. exact H. Qed.
Lemma count_still n (l : loop) : 0 <= dw_steps (nd_dwa n) < two32 -> lp_follow l = true -> 0 <= lp_i l < turns n ->
  (still n l = false <-> lp_i l + 1 = turns n) /\ (still n l = true -> count l = lp_i l + 1).
Proof.
  intros W F I. unfold still, count, turns in *. rewrite F. cbn [andb]. rewrite negb_false_iff, negb_true_iff, Z.eqb_eq, Z.eqb_neq.
  destruct (dw_steps (nd_dwa n) =? 0) eqn:Z0.
  - apply Z.eqb_eq in Z0. rewrite Z0. destruct (Z.eq_dec (lp_i l + 1) two32) as [E|E].
    + rewrite E. unfold u32. rewrite Z_mod_same_full. split; [tauto|congruence].
    + rewrite u32_small by lia. split; [lia|auto].
  - apply Z.eqb_neq in Z0. rewrite u32_small by lia. split; [tauto|auto].
Qed.
Lemma follow_step n s e s' : 0 <= dw_steps (nd_dwa n) < two32 -> running s (ev_pre e) -> iteration n s e s' ->
  lp_follow (ev_pre e) = true -> 0 <= lp_i (ev_pre e) < turns n ->
  if lp_i (ev_pre e) + 1 =? turns n then planned e
  else ~ planned e /\
    ((ev_out e = [Cmd (lp_u (ev_pre e))] /\ passes n (check_map e) (ev_pose e) (lp_u (ev_pre e)) /\
      lp_follow (ev_post e) = true /\ lp_i (ev_post e) = lp_i (ev_pre e) + 1 /\ lp_u (ev_post e) = lp_u (ev_pre e)) \/
     (hits n (check_map e) (ev_pose e) (lp_u (ev_pre e)) /\ lp_follow (ev_post e) = false)).
Proof.
  intros W R It F I. destruct (running_inv _ _ _ _ R It) as (x & _ & Q & Fx & Ix & Ux & ee & u & o1 & o2 & P & C & O).
  pose proof (still_planned _ _ _ _ _ _ _ _ e P C O) as SP. rewrite <- Fx in F. rewrite <- Ix in I |- *. rewrite <- Ux.
  destruct (count_still n x W F I) as [K1 K2]. destruct (_ =? _) eqn:E.
  - apply Z.eqb_eq in E. apply SP, K1, E.
  - apply Z.eqb_neq in E. assert (S : still n x = true) by (destruct (still n x); [reflexivity|]; tauto).
    split; [intros Pl; apply SP in Pl; congruence|]. rewrite <- Q.
    destruct P as [_|v ee p S']; [|congruence]. rewrite O. cbn [app]. remember (ev_post e) as l' eqn:PE.
    destruct C; try congruence; cbn [lp_u lp_follow lp_i app].
    + left. split; [reflexivity|]. split; [assumption|]. split; [assumption|]. split; [apply K2, S|reflexivity].
    + right. split; [assumption|reflexivity].
Qed.
Lemma took_over_post n s e s' v : running s (ev_pre e) -> iteration n s e s' -> took_over e -> In (Cmd v) (ev_out e) ->
  lp_follow (ev_post e) = true /\ lp_i (ev_post e) = 0 /\ lp_u (ev_post e) = v.
Proof.
  intros R It [p I] IC. destruct (running_inv _ _ _ _ R It) as (x & _ & Q & Fx & Ix & Ux & ee & u & o1 & o2 & P & C & O).
  rewrite O in *. apply (in_cmd _ _ _ _ _ _ _ _ _ P C) in IC. subst v. remember (ev_post e) as l' eqn:PE. 
  destruct P, C; cbn in I; intuition congruence.
Qed.
Lemma published_running n s e s' v : iteration n s e s' -> In (Cmd v) (ev_out e) -> running s' (ev_post e) /\
  se_recv (ev_seen e) && lp_known (stage_lookup (ev_pre e) (ev_lookup e)) = true.
Proof.
  intros It I. pose proof (iteration_commands _ _ _ _ It) as C. destruct (_ && _) eqn:A in C.
  - apply andb_true_iff in A. destruct A as [R K]. pose proof (iteration_callbacks _ _ _ _ It) as (_ & rest & C2 & _).
    split; [split; [eapply recv_mono; eauto|exact K]|]. apply andb_true_iff. split; [exact R|]. apply iteration_body, body_pose in It.
    destruct It as (_ & E & _). change (se_lookup (ev_seen e)) with (ev_lookup e) in E. rewrite <- E. exact K.
  - exfalso. assert (J : In v (commands (ev_out e))) by (unfold commands; apply in_flat_map; exists (Cmd v); split; [exact I|left; reflexivity]). rewrite C in J. destruct J.
Qed.
(** A published twist determines the case even if the node was not running before this iteration. *)
Lemma published_inv n s e s' v : iteration n s e s' -> In (Cmd v) (ev_out e) -> exists x, x = stage_lookup (ev_pre e) (ev_lookup e) /\ lp_pose x = ev_pose e /\
  lp_follow x = lp_follow (ev_pre e) /\ lp_i x = lp_i (ev_pre e) /\ lp_u x = lp_u (ev_pre e) /\ v = lp_u (ev_post e) /\ running s' (ev_post e) /\
  exists ee u out1 out2, plans n x (ev_seen e) ee u out1 /\ checks n x (ev_seen e) ee u (ev_post e) out2 /\ ev_out e = out1 ++ out2 ++ [Cmd (lp_u (ev_post e))].
Proof.
  intros It I. destruct (published_running _ _ _ _ _ It I) as [R A]. eexists. split; [reflexivity|]. split; [eapply iteration_pose; eauto|].
  split; [destruct (ev_lookup e); reflexivity|]. split; [destruct (ev_lookup e); reflexivity|]. split; [destruct (ev_lookup e); reflexivity|].
  apply iteration_body, body_inv in It. cbv zeta in It. change (se_lookup (ev_seen e)) with (ev_lookup e) in It. rewrite A in It.
  destruct It as [(F & _)|(_ & It)]; [discriminate|]. split; [|split; [exact R|exact It]].
  destruct It as (ee & u & o1 & o2 & P & C & O). rewrite O in I. eapply in_cmd; eauto.
Qed.
Lemma took_over_state n s e s' v : iteration n s e s' -> took_over e -> In (Cmd v) (ev_out e) ->
  lp_follow (ev_post e) = true /\ lp_i (ev_post e) = 0 /\ lp_u (ev_post e) = v /\ running s' (ev_post e).
Proof.
  intros It [p I] IC. destruct (published_inv _ _ _ _ _ It IC) as (x & _ & Q & Fx & Ix & Ux & V & R & ee & u & o1 & o2 & P & C & O).
  subst v. rewrite O in I. remember (ev_post e) as l' eqn:PE. destruct P, C; cbn in I; intuition congruence.
Qed.
Lemma follow_run n : 0 <= dw_steps (nd_dwa n) < two32 -> forall evs s l s' l' v, exec n s l evs s' l' -> running s l -> lp_follow l = true ->
  0 <= lp_i l < turns n -> lp_u l = v -> (forall e, In e evs -> ~ planned e) -> lp_i l + Z.of_nat (length evs) < turns n /\
  forall pre e post, evs = pre ++ e :: post ->
    (ev_out e = [Cmd v] /\ passes n (check_map e) (ev_pose e) v) \/ (post = [] /\ hits n (check_map e) (ev_pose e) v).
Proof.
  intros W. induction evs as [|e evs IH]; intros s l s' l' v X R F I U N.
  - split; [cbn; lia|]. intros [|] ? ? ?; discriminate.
  - inversion X as [|? ? ? s1 ? ? ? It PE Y]; subst. pose proof (follow_step _ _ _ _ W R It F I) as S.
    destruct (_ =? _) eqn:E; [exfalso; apply (N e); [left; reflexivity|exact S]|]. apply Z.eqb_neq in E.
    destruct (running_active _ _ _ _ R It) as [_ R']. destruct S as [_ [(O & Ps & F' & I' & U')|(H & F')]].
    + assert (Nr : forall e0, In e0 evs -> ~ planned e0) by (intros; apply N; right; assumption).
      destruct (IH _ _ _ _ _ Y R' F' ltac:(lia) U' Nr) as [L A]. split; [cbn [length]; lia|].
      intros [|p0 pre] e0 post Q; injection Q as -> Q; [left; auto|]. eapply A; eauto.
    + assert (Z : evs = []). { destruct evs as [|e2 evs]; [reflexivity|]. exfalso. inversion Y as [|? ? ? s2 ? ? ? It2 PE2 Y2]; subst.
        apply (N e2); [right; left; reflexivity|]. eapply not_following_plans; eauto; rewrite PE2; auto. }
      subst evs. split; [cbn [length]; lia|]. intros [|p0 pre] e0 post Q; injection Q as -> Q; [right; subst; auto|destruct pre; discriminate].
Qed.
Lemma c65_bound n s l ev evs rest s' l' v : 0 <= dw_steps (nd_dwa n) < two32 -> exec n s l (ev :: evs ++ rest) s' l' ->
  took_over ev -> In (Cmd v) (ev_out ev) -> (forall e, In e evs -> ~ planned e) -> Z.of_nat (length evs) <= turns n - 1 /\
  forall pre e post, evs = pre ++ e :: post ->
    (ev_out e = [Cmd v] /\ passes n (check_map e) (ev_pose e) v) \/ (post = [] /\ hits n (check_map e) (ev_pose e) v).
Proof.
  intros W X TO IC N. inversion X as [|? ? ? s1 ? ? ? It PE Y]; subst. apply exec_app in Y. destruct Y as (s2 & l2 & Y & _).
  destruct (took_over_state _ _ _ _ _ It TO IC) as (F & I & U & R).
  assert (B : 0 < turns n) by (unfold turns; destruct (_ =? _) eqn:E; [cbv; reflexivity|apply Z.eqb_neq in E; lia]).
  destruct (follow_run n W _ _ _ _ _ _ Y R F ltac:(lia) U N) as [L A]. split; [lia|exact A].
Qed.
Lemma passes_hits n g x u : passes n g x u -> hits n g x u -> False.
Proof.
  intros (k & [_ K] & P) (k' & [_ K'] & H). assert (k = k') by (apply Nat2Z.inj; congruence). subst k'.
  apply Exists_exists in H. destruct H as (p & I & C). rewrite Forall_forall in P. specialize (P p I). unfold clear, crash in *. congruence.
Qed.
Lemma follow_exact n : 0 <= dw_steps (nd_dwa n) < two32 -> forall evs s l s' l' v, exec n s l evs s' l' -> running s l -> lp_follow l = true ->
  0 <= lp_i l < turns n -> lp_u l = v -> (forall e, In e evs -> passes n (check_map e) (ev_pose e) v) -> lp_i l + Z.of_nat (length evs) < turns n ->
  (forall e, In e evs -> ~ planned e) /\ lp_follow l' = true /\ lp_i l' = lp_i l + Z.of_nat (length evs) /\ running s' l' /\ lp_u l' = v.
Proof.
  intros W. induction evs as [|e evs IH]; intros s l s' l' v X R F I U A L.
  - inversion X; subst. split; [intros e []|]. cbn. rewrite Z.add_0_r. auto.
  - inversion X as [|? ? ? s1 ? ? ? It PE Y]; subst. pose proof (follow_step _ _ _ _ W R It F I) as S. cbn [length] in L.
    destruct (_ =? _) eqn:E; [apply Z.eqb_eq in E; lia|]. destruct (running_active _ _ _ _ R It) as [_ R'].
    destruct S as [Np [(O & Ps & F' & I' & U')|(H & F')]]; [|exfalso; eapply passes_hits; [apply A; left; reflexivity|exact H]].
    destruct (IH _ _ _ _ _ Y R' F' ltac:(lia) U') as (B1 & B2 & B3 & B4 & B5); [intros; apply A; right; assumption|lia|].
    split; [intros e0 [<-|J]; auto|]. split; [auto|]. split; [cbn [length]; lia|auto].
Qed.
Lemma c65_exact n s l ev evs rest s' l' v : 0 <= dw_steps (nd_dwa n) < two32 -> exec n s l (ev :: evs ++ rest) s' l' ->
  took_over ev -> In (Cmd v) (ev_out ev) -> (forall e, In e evs -> passes n (check_map e) (ev_pose e) v) -> Z.of_nat (length evs) <= turns n - 1 ->
  (forall e, In e evs -> ev_out e = [Cmd v]) /\ (Z.of_nat (length evs) = turns n - 1 -> forall e rest', rest = e :: rest' -> planned e).
Proof.
  intros W X TO IC A L. inversion X as [|? ? ? s1 ? ? ? It PE Y]; subst. apply exec_app in Y. destruct Y as (s2 & l2 & Y & Z).
  destruct (took_over_state _ _ _ _ _ It TO IC) as (F & I & U & R).
  destruct (follow_exact n W _ _ _ _ _ _ Y R F ltac:(lia) U A ltac:(lia)) as (N & F2 & I2 & R2 & U2). split.
  - intros e J. destruct (in_split _ _ J) as (pre & post & Q).
    destruct (follow_run n W _ _ _ _ _ _ Y R F ltac:(lia) U N) as [_ B]. destruct (B pre e post Q) as [[O _]|[_ H]]; [exact O|].
    exfalso. eapply passes_hits; [apply A, J|exact H].
  - intros E e rest' ->. inversion Z as [|? ? ? s3 ? ? ? It3 PE3 Z3]; subst.
    pose proof (follow_step _ _ _ _ W R2 It3 F2 ltac:(lia)) as S. destruct (_ =? _) eqn:Q; [exact S|]. apply Z.eqb_neq in Q. lia.
Qed.

(** C66 *)
Lemma c66_next n s l e1 e2 rest s' l' v : exec n s l (e1 :: e2 :: rest) s' l' -> In (Cmd v) (ev_out e1) -> ~ took_over e1 ->
  (planned e1 \/ hits n (check_map e1) (ev_pose e1) (lp_u (ev_pre e1))) -> planned e2.
Proof.
  intros X IC NT0 H. inversion X as [|? ? ? s1 ? ? ? It PE Y]; subst. inversion Y as [|? ? ? s2 ? ? ? It2 PE2 Y2]; subst.
  destruct (published_inv _ _ _ _ _ It IC) as (x & _ & Q & Fx & Ix & Ux & V & R & ee & u & o1 & o2 & P & C & O).
  eapply not_following_plans; [rewrite PE2; exact R| |exact It2]. rewrite PE2. pose proof (still_planned _ _ _ _ _ _ _ _ e1 P C O) as SP.
  assert (NN : forall p, ~ In (DwaTraj p) (ev_out e1)) by (intros p J; apply NT0; exists p; exact J). rewrite O in NN.
  assert (S : still n x = false \/ (u = lp_u x /\ still n x = true /\ hits n (check_map e1) (ev_pose e1) (lp_u x))).
  { destruct P as [S|v0 ee p S K1 K2]; [|left; exact S]. right. destruct H as [Pl|H]; [apply SP in Pl; congruence|]. rewrite Ux. auto. }
  clear SP. destruct C; cbn [lp_follow]; auto.
  - destruct S as [S|(-> & S & Hs)]; [exact S|]. exfalso. eapply passes_hits; [eassumption|]. rewrite Q. exact Hs.
  - exfalso. apply (NN p). apply in_or_app. right. left. reflexivity.
Qed.
End Any.

(** ** C64 in binary64 *)
Lemma c64_cases (L : libm) (n : node b64) s l evs s' l' e u : @exec b64 (F64 L) n s l evs s' l' -> In e evs -> In (Cmd u) (ev_out e) ->
  @passes b64 (F64 L) n (check_map e) (ev_pose e) u \/
  (@safe b64 (F64 L) (nd_dwa n) (dwa_map e) (ev_pose e) u /\ @sampled b64 (F64 L) (nd_dwa n) (dwa_vb e) u) \/
  (u = V3 (b64_ofZ 0) (b64_ofZ 0) (b64_ofZ 0) /\
   ((exists vref, @dwa_control b64 (F64 L) (nd_dwa n) (dwa_map e) (ev_pose e) (dwa_vb e) vref = Ok (false, u)) \/
    (exists ref dtr, @dwa_follow b64 (F64 L) (nd_dwa n) (dwa_map e) (ev_pose e) (dwa_vb e) ref dtr = Ok (false, u)))).
Proof.
  intros X I C. apply In_nth_error in I. destruct I as [k K]. destruct (exec_split _ _ _ _ _ _ _ _ X K) as (s1 & s2 & _ & It & _).
  destruct (iteration_cases _ _ _ _ _ It C) as [P|[(vref & [|] & D)|(ref & dtr & [|] & D)]]; [auto| | | |].
  - right. left. apply c50_success64 in D. tauto.
  - right. right. split; [apply c50_failure64 in D; apply D|]. left. eauto.
  - right. left. apply c50_follow64 in D. tauto.
  - right. right. split; [apply c50_follow_failure64 in D; apply D|]. right. eauto.
Qed.
Lemma c64_64 (L : libm) (n : node b64) s l evs s' l' e u : @exec b64 (F64 L) n s l evs s' l' -> In e evs -> In (Cmd u) (ev_out e) ->
  @passes b64 (F64 L) n (check_map e) (ev_pose e) u \/
  (@safe b64 (F64 L) (nd_dwa n) (dwa_map e) (ev_pose e) u /\ @sampled b64 (F64 L) (nd_dwa n) (dwa_vb e) u) \/
  u = V3 (b64_ofZ 0) (b64_ofZ 0) (b64_ofZ 0).
Proof. intros X I C. destruct (c64_cases L _ _ _ _ _ _ _ _ X I C) as [P|[P|[P _]]]; auto. Qed.
Lemma c66_stuck (L : libm) (n : node b64) s l e1 e2 rest s' l' v : @exec b64 (F64 L) n s l (e1 :: e2 :: rest) s' l' -> In (Cmd v) (ev_out e1) ->
  ~ @passes b64 (F64 L) n (check_map e1) (ev_pose e1) v ->
  (forall u, @sampled b64 (F64 L) (nd_dwa n) (dwa_vb e1) u -> @collides b64 (F64 L) (nd_dwa n) (dwa_map e1) (ev_pose e1) u) ->
  v = V3 (b64_ofZ 0) (b64_ofZ 0) (b64_ofZ 0) /\ planned e2.
Proof.
  intros X C NP NS. assert (V : v = V3 (b64_ofZ 0) (b64_ofZ 0) (b64_ofZ 0)).
  { destruct (c64_64 L _ _ _ _ _ _ e1 v X (or_introl eq_refl) C) as [P|[[S1 S2]|E]]; [contradiction| |exact E].
    exfalso. eapply (@safe_collides b64 (F64 L)); [exact S1|apply NS, S2]. }
  split; [exact V|]. clear V. inversion X as [|? ? ? s1 ? ? ? It PE Y]; subst. inversion Y as [|? ? ? s2 ? ? ? It2 PE2 Y2]; subst.
  destruct (published_inv _ _ _ _ _ It C) as (x & _ & Q & Fx & Ix & Ux & V & R & ee & u & o1 & o2 & P & K & O). subst v.
  apply (@not_following_plans b64 (F64 L) n s1 e2 s2); [rewrite PE2; exact R|rewrite PE2|exact It2].
  remember (ev_post e1) as l1. destruct K; cbn [lp_follow lp_u] in *; auto.
  - exfalso. apply NP. rewrite <- Q. assumption.
  - exfalso. rewrite Q in *. match goal with D : dwa_follow _ _ _ _ _ _ = Ok (true, _) |- _ => apply c50_follow64 in D; destruct D as (D1 & D2 & _) end.
    eapply (@safe_collides b64 (F64 L)); [exact D2|]. apply NS, D1.
Qed.

Section Stale.
Context {T : Type} {NT : Num T}.
(** ** C68 *)
Lemma c68_plan n s l evs s' l' e p : exec n s l evs s' l' -> In e evs -> In (Traj p) (ev_out e) ->
  ec_pose (lp_ec (ev_post e)) = @ev_pose T e /\ ec_path (lp_ec (ev_post e)) = Ok p.
Proof.
  intros X I IP. apply In_nth_error in I. destruct I as [k K]. destruct (exec_split _ _ _ _ _ _ _ _ X K) as (s1 & s2 & _ & It & _).
  pose proof (iteration_pose _ _ _ _ It) as Q. apply iteration_body in It. apply body_inv in It. cbv zeta in It.
  change (se_lookup (ev_seen e)) with (ev_lookup e) in It. set (x := stage_lookup (ev_pre e) (ev_lookup e)) in *.
  destruct It as [(_ & _ & O)|(_ & ee & u & o1 & o2 & P & C & O)]; rewrite O in IP; [destruct IP|].
  assert (E : lp_ec (ev_post e) = ee) by (remember (ev_post e); destruct C; reflexivity). rewrite E.
  destruct P as [S|v ee p' S K1 K2].
  - exfalso. destruct C; cbn in IP; intuition congruence.
  - apply control_buffer in K1. destruct K1 as [_ ->]. split; [exact Q|]. rewrite K2. f_equal. destruct C; cbn in IP; intuition congruence.
Qed.
Lemma c68_pose n s l evs s' l' k e : exec n s l evs s' l' -> nth_error evs k = Some e ->
  @ev_pose T e = last_pose (lp_pose l) (map ev_lookup (firstn (S k) evs)).
Proof.
  intros X K. assert (E : evs = firstn (S k) evs ++ skipn (S k) evs) by (rewrite firstn_skipn; reflexivity). rewrite E in X. apply exec_app in X.
  destruct X as (s1 & l1 & X & _). destruct (exec_pose _ _ _ _ _ _ X) as (P & _). unfold ev_pose. rewrite <- P. f_equal.
  clear P. revert k K X E. intros k K X _. assert (F : firstn (S k) evs = firstn k evs ++ [e]).
  { clear X. revert evs K. induction k as [|k IH]; intros [|a evs] K; try discriminate; [injection K as ->; reflexivity|]. cbn [firstn app]. f_equal. apply IH, K. }
  rewrite F in X. apply exec_app in X. destruct X as (s2 & l2 & _ & X). inversion X as [|? ? ? s3 ? ? ? It PE Y]; subst. inversion Y; subst. reflexivity.
Qed.
Lemma c68_memory n s l evs s' l' : exec n s l evs s' l' ->
  ec_buffer (lp_ec l') = fold_left append (map to_col (looked_up (map (@ev_lookup T) evs))) (ec_buffer (lp_ec l)).
Proof. intros X. apply exec_pose in X. apply X. Qed.
Lemma c68_stale n s l evs s' l' : exec n s l evs s' l' -> sh_recv s = true -> lp_known l = true -> (forall e, In e evs -> ev_lookup e = None) ->
  ec_buffer (lp_ec l') = ec_buffer (lp_ec l) /\ forall e, In e evs -> @ev_pose T e = lp_pose l /\ length (commands (ev_out e)) = 1%nat.
Proof.
  intros X R K N. assert (M : forall es, (forall e, In e es -> ev_lookup e = None) -> forall x, last_pose x (map (@ev_lookup T) es) = x /\ looked_up (map (@ev_lookup T) es) = []).
  { clear. induction es as [|e es IH]; intros N x; [split; reflexivity|]. unfold last_pose, looked_up. cbn [map fold_left flat_map]. rewrite (N e) by (left; reflexivity).
    apply IH. intros; apply N; right; assumption. }
  split.
  - rewrite (c68_memory _ _ _ _ _ _ X). destruct (M evs N (lp_pose l)) as [_ ->]. reflexivity.
  - intros e I. apply In_nth_error in I. destruct I as [k J]. split.
    + rewrite (c68_pose _ _ _ _ _ _ _ _ X J). apply M. intros e' I'. apply N. rewrite <- (firstn_skipn (S k) evs). apply in_or_app. left. exact I'.
    + destruct (exec_split _ _ _ _ _ _ _ _ X J) as (s1 & s2 & X1 & It & _).
      rewrite (iteration_commands _ _ _ _ It). pose proof (exec_recv _ _ _ _ _ _ X1 R) as R1. pose proof (iteration_callbacks _ _ _ _ It) as [C1 _].
      rewrite (recv_mono _ _ _ C1 R1). apply iteration_body, body_pose in It. destruct It as (_ & -> & _).
      apply exec_pose in X1. destruct X1 as (_ & _ & Q). rewrite K in Q. cbn in Q. unfold ev_seen, view. cbn [se_lookup].
      destruct (ev_lookup e); cbn [stage_lookup lp_known]; [reflexivity|]. rewrite Q. reflexivity.
Qed.
End Stale.
Section Callback.
Context {T : Type} {NT : Num T}.
Lemma nothing_started (s s' : shared T) : callbacks [] s s' -> sh_todo s' = [] ->
  s' = fold_left (fun x w => mkShared (write_grid w (sh_grid x)) (write_recv w (sh_recv x)) (write_vb w (sh_vb x)) []) (sh_todo s)
         (mkShared (sh_grid s) (sh_recv s) (sh_vb s) []).
Proof.
  intros H. remember [] as ms eqn:M. induction H as [s|m ms s s' E C IH|w rest ms s s' E C IH]; intros Z; [|discriminate|].
  - rewrite Z. cbn. rewrite <- Z. destruct s; reflexivity.
  - rewrite (IH M Z), E. reflexivity.
Qed.
Lemma map_callback (s s' : shared T) m : callbacks [MMap m] s s' -> sh_todo s = [] -> sh_todo s' = [] ->
  sh_grid s' = grid_of_msg m /\ sh_recv s' = true /\ sh_vb s' = sh_vb s.
Proof.
  intros H E Z. inversion H as [|? ? ? ? E' C|? ? ? ? ? E' C]; subst; [|congruence]. apply nothing_started in C; [|exact Z].
  rewrite C. cbn. split; [|split; reflexivity]. reflexivity.
Qed.
Lemma odom_callback (s s' : shared T) v : callbacks [MOdom v] s s' -> sh_todo s = [] -> sh_todo s' = [] ->
  sh_vb s' = v /\ sh_recv s' = sh_recv s /\ sh_grid s' = sh_grid s.
Proof.
  intros H E Z. inversion H as [|? ? ? ? E' C|? ? ? ? ? E' C]; subst; [|congruence]. apply nothing_started in C; [|exact Z].
  rewrite C. cbn. destruct v. split; [|split; reflexivity]. reflexivity.
Qed.
End Callback.
