(** Proofs about checks during which the map changes. *)
From Coq Require Import ZArith List Bool Lia.
From Flocq Require Import IEEE754.BinarySingleNaN.
From Verif Require Import Outcome Num Float64 GridModel CollisionModel NumericsModel BufferModel BasisModel RobotModel DwaModel ErgodicModel
  ExplorationModel FineModel SpecDwa SpecExploration SpecShared SpecFine DwaProofs ErgodicProofs ExplorationProofs SharedProofs.
Import ListNotations.

Section Any.
Context {T : Type} {NT : Num T}.
Implicit Types (d : dwa T) (c : collision T) (gs : nat -> grid T).

(** [ps] are clear on the maps seen from the [k]-th check on *)
Definition clears c gs (k : nat) (ps : list (vec3 T)) : Prop := forall i p, nth_error ps i = Some p -> clear c (gs (k + i)%nat) p.
Lemma clears_cons c gs k p ps : clear c (gs k) p -> clears c gs (S k) ps -> clears c gs k (p :: ps).
Proof. intros A B [|i] q Q; [rewrite Nat.add_0_r; cbn in Q; injection Q as <-; exact A|rewrite Nat.add_succ_r; exact (B i q Q)]. Qed.
Local Opaque collisionCheck integrate_twist normalize_angle_PI.

Lemma validate_at gs c u dt n : forall x k b k', validate_loop_at gs n c x u dt k = Ok (b, k') ->
  (k <= k')%nat /\ if b then clears c gs k (rollout n dt u x) /\ k' = (k + n)%nat
  else exists i p, nth_error (rollout n dt u x) i = Some p /\ crash c (gs (k + i)%nat) p /\ k' = (k + S i)%nat /\ clears c gs k (firstn i (rollout n dt u x)).
Proof.
  induction n as [|n IH]; intros x k b k' H; cbn [validate_loop_at rollout] in *; cbv zeta in *.
  - injection H as <- <-. split; [lia|]. split; [intros [|i] p; discriminate|lia].
  - set (y := V3 _ _ _) in *. destruct (collisionCheck c (gs k) (v0 y) (v1 y)) as [[|]| | |] eqn:E; cbn [bind] in H; try discriminate.
    + injection H as <- <-. split; [lia|]. exists 0%nat, y. rewrite Nat.add_0_r. split; [reflexivity|]. split; [exact E|]. split; [lia|intros [|i] p; discriminate].
    + apply IH in H. destruct H as [L H]. split; [lia|]. destruct b.
      * destruct H as [H ->]. split; [apply clears_cons; assumption|lia].
      * destruct H as (i & p & A & B & -> & D). exists (S i), p. split; [exact A|]. split; [rewrite Nat.add_succ_r; exact B|]. split; [lia|].
        cbn [firstn]. apply clears_cons; assumption.
Qed.
Lemma follow_at gs d u ref tf n : forall x t s k m k', objective_loop_at gs n d u ref tf x t s k = Ok (m, k') ->
  (k <= k')%nat /\ (m = nmax \/ (clears (dw_collision d) gs k (rollout n (dw_dt d) u x) /\ k' = (k + n)%nat)).
Proof.
  induction n as [|n IH]; intros x t s k m k' H; cbn [objective_loop_at rollout] in *; cbv zeta in *.
  - injection H as <- <-. split; [lia|]. right. split; [intros [|i] p; discriminate|lia].
  - set (y := V3 _ _ _) in *. destruct (collisionCheck (dw_collision d) (gs k) (v0 y) (v1 y)) as [[|]| | |] eqn:E; cbn [bind] in H; try discriminate.
    + injection H as <- <-. split; [lia|left; reflexivity].
    + destruct (ref_index ref t tf) as [j| | |]; cbn [bind] in H; try discriminate. destruct (col_at ref j) as [r| | |]; cbn [bind] in H; try discriminate.
      apply IH in H. destruct H as [L [->|[H ->]]]; (split; [lia|]); [left; reflexivity|right]. split; [apply clears_cons; assumption|lia].
Qed.

(** ** The loops visit the twists of the window *)
Fixpoint select_at (obj : vec3 T -> nat -> res (T * nat)) (l : list (vec3 T)) (st : T * vec3 T) (k : nat) : res (T * vec3 T * nat) :=
  match l with
  | [] => Ok (st, k)
  | u :: l => let* ' (c, k) := obj u k in select_at obj l (if nlt c (fst st) then (c, u) else st) k
  end.
Lemma select_at_app obj l l' st k : select_at obj (l ++ l') st k = (let* ' (st, k) := select_at obj l st k in select_at obj l' st k).
Proof. revert st k. induction l as [|u l IH]; intros st k; cbn [select_at app bind]; [reflexivity|]. destruct (obj u k) as [[c k1]| | |]; cbn [bind]; auto. Qed.
Lemma loop_w_at_select obj n : forall vx vy w dw st k, loop_w_at obj n vx vy w dw st k = select_at obj (map (fun w => V3 vx vy w) (steps_of dw n w)) st k.
Proof.
  induction n as [|n IH]; intros vx vy w dw st k; [reflexivity|]. rewrite steps_of_S. cbn [loop_w_at map select_at]. cbv zeta.
  destruct (obj _ k) as [[c k1]| | |]; cbn [bind]; auto.
Qed.
Lemma loop_vy_at_select obj n nth : forall vx vy w dv st k, loop_vy_at obj n nth vx vy w dv st k =
  select_at obj (flat_map (fun vy => map (fun w => V3 vx vy w) (steps_of (v2 dv) nth w)) (steps_of (v1 dv) n vy)) st k.
Proof.
  induction n as [|n IH]; intros vx vy w dv st k; [reflexivity|]. rewrite steps_of_S. cbn [loop_vy_at flat_map]. rewrite select_at_app, loop_w_at_select.
  destruct (select_at _ _ _ _) as [[st1 k1]| | |]; cbn [bind]; auto.
Qed.
Lemma loop_vx_at_select obj n ny nth : forall vx lo dv st k, loop_vx_at obj n ny nth vx lo dv st k =
  select_at obj (flat_map (fun vx => flat_map (fun vy => map (fun w => V3 vx vy w) (steps_of (v2 dv) nth (v2 lo))) (steps_of (v1 dv) ny (v1 lo))) (steps_of (v0 dv) n vx)) st k.
Proof.
  induction n as [|n IH]; intros vx lo dv st k; [reflexivity|]. rewrite steps_of_S. cbn [loop_vx_at flat_map]. rewrite select_at_app, loop_vy_at_select.
  destruct (select_at _ _ _ _) as [[st1 k1]| | |]; cbn [bind]; auto.
Qed.
Lemma search_at_select d obj vb k : dwa_search_at d obj vb k =
  (let* ' ((m, u), k) := select_at obj (grid_of d vb) (nmax, V3 n0 n0 n0) k in if almost_equal m nmax then Ok (false, u, k) else Ok (true, u, k)).
Proof. unfold dwa_search_at, grid_of. destruct (dwa_window d vb) as [lo dv]. rewrite loop_vx_at_select. reflexivity. Qed.

Lemma select_mono obj l : (forall u k m k', obj u k = Ok (m, k') -> (k <= k')%nat) -> forall st k r k', select_at obj l st k = Ok (r, k') -> (k <= k')%nat.
Proof.
  intros Mono. induction l as [|a l IH]; intros st k r k' H; cbn [select_at] in H; [injection H as _ ->; lia|].
  destruct (obj a k) as [[c k1]| | |] eqn:E; cbn [bind fst] in H; try discriminate. pose proof (Mono _ _ _ _ E). apply IH in H. lia.
Qed.
Section Order.
Hypothesis lt_trans : forall a b c : T, nlt a b = true -> nlt b c = true -> nlt a c = true.
Hypothesis lt_irrefl : forall a : T, nlt a a = false.
Hypothesis max_max : almost_equal (nmax : T) nmax = true.
Hypothesis max_gap : forall m : T, nlt m nmax = true -> almost_equal m nmax = false.
Lemma select_at_spec obj l : (forall u k m k', obj u k = Ok (m, k') -> (k <= k')%nat) -> forall m0 u0 k m u k', select_at obj l (m0, u0) k = Ok (m, u, k') ->
  (k <= k')%nat /\ ((m = m0 /\ u = u0) \/ (In u l /\ nlt m m0 = true /\ exists k1 k2, obj u k1 = Ok (m, k2) /\ (k <= k1)%nat /\ (k2 <= k')%nat)).
Proof.
  intros Mono. induction l as [|a l IH]; intros m0 u0 k m u k' H; cbn [select_at] in H.
  - injection H as -> -> ->. split; [lia|left; split; reflexivity].
  - destruct (obj a k) as [[c k1]| | |] eqn:E; cbn [bind fst] in H; try discriminate. pose proof (Mono _ _ _ _ E).
    destruct (nlt c m0) eqn:L; apply IH in H; destruct H as [K [(-> & ->)|(I & B & k2 & k3 & O & K1 & K2)]]; (split; [lia|]).
    + right. split; [left; reflexivity|]. split; [exact L|]. exists k, k1. split; [exact E|lia].
    + right. split; [right; exact I|]. split; [exact (lt_trans _ _ _ B L)|]. exists k2, k3. split; [exact O|lia].
    + left. split; reflexivity.
    + right. split; [right; exact I|]. split; [exact B|]. exists k2, k3. split; [exact O|lia].
Qed.
(** The outcome of a search whose objective is the maximum unless the rollout is clear *)
Lemma search_at_cases gs d obj x0 vb k b u k' : (forall u k m k', obj u k = Ok (m, k') -> (k <= k')%nat /\
    (m = nmax \/ (clears (dw_collision d) gs k (rollout (Z.to_nat (dw_steps d)) (dw_dt d) u x0) /\ k' = (k + Z.to_nat (dw_steps d))%nat))) ->
  dwa_search_at d obj vb k = Ok (b, u, k') -> (k <= k')%nat /\
  if b then sampled d vb u /\ exists k0, (k <= k0)%nat /\ (k0 + Z.to_nat (dw_steps d) <= k')%nat /\ clears (dw_collision d) gs k0 (rollout (Z.to_nat (dw_steps d)) (dw_dt d) u x0)
  else u = V3 n0 n0 n0.
Proof.
  intros Obj. rewrite search_at_select. destruct (select_at _ _ _ _) as [[[m w] k1]| | |] eqn:E; cbn [bind]; try discriminate.
  apply select_at_spec in E; [|intros a j m' j' O; apply Obj in O; apply O]. destruct E as [K E].
  destruct (almost_equal m nmax) eqn:Q; intros H; injection H as <- <- <-; (split; [exact K|]).
  - destruct E as [(_ & ->)|(_ & B & _)]; [reflexivity|]. rewrite (max_gap _ B) in Q. discriminate.
  - destruct E as [(-> & _)|(I & B & k2 & k3 & O & K1 & K2)]; [rewrite max_max in Q; discriminate|]. split; [apply grid_of_sampled, I|].
    apply Obj in O. destruct O as [K3 [->|[O ->]]]; [rewrite lt_irrefl in B; discriminate|]. exists k2. split; [exact K1|]. split; [exact K2|exact O].
Qed.
Lemma vref_at gs d x0 vref u k m k' : objective_vref_at gs d x0 vref u k = Ok (m, k') -> (k <= k')%nat /\
  (m = nmax \/ (clears (dw_collision d) gs k (rollout (Z.to_nat (dw_steps d)) (dw_dt d) u x0) /\ k' = (k + Z.to_nat (dw_steps d))%nat)).
Proof.
  unfold objective_vref_at. destruct (validate_loop_at _ _ _ _ _ _ _) as [[b j]| | |] eqn:E; cbn [bind]; try discriminate.
  apply validate_at in E. destruct E as [K E]. destruct b; cbn [negb]; intros H; injection H as <- <-; (split; [exact K|]); [right; exact E|left; reflexivity].
Qed.

(** ** An iteration *)
Lemma check_cases n gs (l : loop T) vb l' out k : stage_check_at gs n l vb = Ok (l', out, k) ->
  lp_pose l' = lp_pose l /\
  ((exists j, val_steps n j /\ (j <= k)%nat /\ clears (nd_collision n) gs 0 (rollout j (nd_val_dt n) (lp_u l) (lp_pose l)) /\ lp_u l' = lp_u l /\ out = []) \/
   (exists j i p, val_steps n j /\ (i < k)%nat /\ nth_error (rollout j (nd_val_dt n) (lp_u l) (lp_pose l)) i = Some p /\ crash (nd_collision n) (gs i) p /\
      clears (nd_collision n) gs 0 (firstn i (rollout j (nd_val_dt n) (lp_u l) (lp_pose l))) /\
      ((sampled (nd_dwa n) vb (lp_u l') /\ exists k0, (i < k0)%nat /\ (k0 + Z.to_nat (dw_steps (nd_dwa n)) <= k)%nat /\
          clears (dw_collision (nd_dwa n)) gs k0 (rollout (Z.to_nat (dw_steps (nd_dwa n))) (dw_dt (nd_dwa n)) (lp_u l') (lp_pose l))) \/
       lp_u l' = V3 n0 n0 n0))).
Proof.
  unfold stage_check_at, validate_control_at. destruct (num_steps _ _) as [st| | |] eqn:S; cbn [bind]; try discriminate. apply val_steps_iff in S.
  destruct (validate_loop_at _ _ _ _ _ _ _) as [[v k1]| | |] eqn:V; cbn [bind]; try discriminate. apply validate_at in V. destruct V as [_ V]. destruct v.
  - destruct V as [V ->]. intros H. injection H as <- <- <-. split; [reflexivity|]. left. exists (Z.to_nat st). split; [exact S|]. split; [lia|]. split; [exact V|]. split; reflexivity.
  - destruct V as (i & p & A & B & -> & D). cbn [Nat.add] in *. destruct (lp_follow l).
    + destruct (dwa_control_at _ _ _ _ _ _) as [[[b u] k2]| | |] eqn:Q; cbn [bind]; try discriminate. intros H. injection H as <- <- <-. split; [reflexivity|]. right.
      apply (search_at_cases gs) with (x0 := lp_pose l) in Q; [|intros; eapply vref_at; eassumption]. destruct Q as [K Q].
      exists (Z.to_nat st), i, p. split; [exact S|]. split; [lia|]. split; [exact A|]. split; [exact B|]. split; [exact D|]. cbn [lp_u].
      destruct b; [left|right; exact Q]. destruct Q as (Q1 & k0 & Q2 & Q3 & Q4). split; [exact Q1|]. exists k0. split; [lia|]. split; assumption.
    + destruct (optTraj _) as [ref| | |]; cbn [bind]; try discriminate. destruct (dwa_follow_at _ _ _ _ _ _ _) as [[[b u] k2]| | |] eqn:Q; cbn [bind]; try discriminate.
      apply (search_at_cases gs) with (x0 := lp_pose l) in Q; [|intros a j m j' O; eapply follow_at, O]. destruct Q as [K Q]. destruct b.
      * destruct (constTwistPath _ _ _ _) as [pa| | |]; cbn [bind]; try discriminate. intros H. injection H as <- <- <-. split; [reflexivity|]. right.
        exists (Z.to_nat st), i, p. split; [exact S|]. split; [lia|]. split; [exact A|]. split; [exact B|]. split; [exact D|]. cbn [lp_u].
        left. destruct Q as (Q1 & k0 & Q2 & Q3 & Q4). split; [exact Q1|]. exists k0. split; [lia|]. split; assumption.
      * intros H. injection H as <- <- <-. split; [reflexivity|]. right.
        exists (Z.to_nat st), i, p. split; [exact S|]. split; [lia|]. split; [exact A|]. split; [exact B|]. split; [exact D|]. cbn [lp_u]. right. exact Q.
Qed.
(** From positions to lists *)
Lemma clears_turn c t0 ss : forall ps k0, (k0 + length ps <= length ss)%nat -> clears c (maps t0 ss) k0 ps ->
  clear_in_turn c (firstn (length ps) (skipn k0 ss)) ps.
Proof.
  induction ps as [|p ps IH]; intros k0 L H; cbn [length] in *; [constructor|].
  assert (K : (k0 < length ss)%nat) by lia. destruct (nth_error ss k0) as [s|] eqn:N; [|apply nth_error_None in N; lia].
  assert (E : skipn k0 ss = s :: skipn (S k0) ss).
  { clear - N. revert ss N. induction k0 as [|k IH]; intros [|a ss] N; try discriminate; [cbn in *; congruence|]. cbn [skipn]. exact (IH ss N). }
  rewrite E. cbn [firstn]. constructor.
  - specialize (H 0%nat p eq_refl). rewrite Nat.add_0_r in H. unfold maps in H. rewrite (nth_error_nth _ _ _ N) in H. exact H.
  - apply IH; [lia|]. intros i q Q. specialize (H (S i) q Q). rewrite Nat.add_succ_r in H. exact H.
Qed.
Lemma crash_turn c t0 ss ps i p : (i < length ss)%nat -> nth_error ps i = Some p -> crash c (maps t0 ss i) p -> clears c (maps t0 ss) 0 (firstn i ps) ->
  crash_in_turn c ss ps.
Proof.
  intros L N C H. destruct (nth_error ss i) as [s|] eqn:S; [|apply nth_error_None in S; lia].
  unfold maps in C. rewrite (nth_error_nth _ _ _ S) in C.
  assert (Sp : forall A (l : list A) i a, nth_error l i = Some a -> l = firstn i l ++ a :: skipn (Datatypes.S i) l).
  { clear. intros A l i. revert l. induction i as [|i IH]; intros [|b l] a N; try discriminate; [cbn in *; congruence|]. cbn [firstn skipn app]. f_equal. exact (IH l a N). }
  assert (F : length (firstn i ps) = i) by (apply firstn_length_le; assert (i < length ps)%nat by (apply nth_error_Some; congruence); lia).
  exists (firstn i ss), s, (skipn (Datatypes.S i) ss), (firstn i ps), p, (skipn (Datatypes.S i) ps). split; [apply Sp, S|]. split; [apply Sp, N|]. split; [|exact C].
  pose proof (clears_turn c t0 ss (firstn i ps) 0 ltac:(lia) H) as Q. rewrite F in Q. exact Q.
Qed.
Lemma fine_split n s l evs s' l' e : fine_exec n s l evs s' l' -> In e evs -> exists s1 s2, fine_iteration n s1 e s2.
Proof. induction 1 as [s l|s l e0 s1 evs s' l' I P X IH]; intros J; [destruct J|]. destruct J as [<-|J]; [eauto|exact (IH J)]. Qed.
Lemma c89_turns n s l evs s' l' e u : fine_exec n s l evs s' l' -> In e evs -> In (Cmd u) (fe_out e) ->
  (exists k, val_steps n k /\ clear_in_turn (nd_collision n) (firstn k (fe_checks e)) (rollout k (nd_val_dt n) u (fine_pose e))) \/
  ((exists k w, val_steps n k /\ crash_in_turn (nd_collision n) (fe_checks e) (rollout k (nd_val_dt n) w (fine_pose e))) /\
   ((sampled (nd_dwa n) (sh_vb (fe_vb e)) u /\ exists k0, let k := Z.to_nat (dw_steps (nd_dwa n)) in
       clear_in_turn (dw_collision (nd_dwa n)) (firstn k (skipn k0 (fe_checks e))) (rollout k (dw_dt (nd_dwa n)) u (fine_pose e))) \/
    u = V3 n0 n0 n0)).
Proof.
  intros X I C. destruct (fine_split _ _ _ _ _ _ _ X I) as (s1 & s2 & It). clear X I. destruct It as [s0 lk draws test plan c1 vbm c2 last m0 m1 m2 m3 l0 l1 s3 out _ _ _ _ B].
  cbn [fe_out fe_checks fe_vb] in *. unfold fine_pose. cbn [fe_post]. set (ss := c1 ++ c2) in *. unfold body_at in B. cbn [se_lookup se_recv se_vb] in B. cbv zeta in B.
  set (x := stage_lookup l0 lk) in *. destruct (_ && _)%bool; [|injection B as <- <- _; destruct C].
  destruct (stage_plan _ _) as [[l2 o1]| | |] eqn:P; cbn [bind] in B; try discriminate. destruct (stage_check_at _ _ _ _) as [[[l3 o2] k]| | |] eqn:K; cbn [bind] in B; try discriminate.
  injection B as <- <- Len. change (length (c1 ++ c2)) with (length ss) in Len. assert (U : u = lp_u l3).
  { apply in_app_or in C. destruct C as [C|C].
    - exfalso. clear - P C. unfold stage_plan in P. destruct (lp_follow _); [injection P as _ <-; destruct C|]. destruct (ec_control _ _ _ _) as [[v e]| | |]; cbn [bind] in P; try discriminate.
      destruct (ec_path e); cbn [bind] in P; try discriminate. injection P as _ <-. destruct C as [C|[]]. discriminate.
    - apply in_app_or in C. destruct C as [C|[C|[]]]; [|congruence]. exfalso. clear - K C. unfold stage_check_at in K. destruct (validate_control_at _ _ _ _ _ _ _) as [[v k1]| | |]; cbn [bind] in K; try discriminate.
      destruct v; [injection K as _ <- _; destruct C|]. destruct (lp_follow _).
      + destruct (dwa_control_at _ _ _ _ _ _) as [[[b v] k2]| | |]; cbn [bind] in K; try discriminate. injection K as _ <- _. destruct C.
      + destruct (optTraj _); cbn [bind] in K; try discriminate. destruct (dwa_follow_at _ _ _ _ _ _ _) as [[[b v] k2]| | |]; cbn [bind] in K; try discriminate.
        destruct b; [|injection K as _ <- _; destruct C]. destruct (constTwistPath _ _ _ _); cbn [bind] in K; try discriminate. injection K as _ <- _. destruct C as [C|[]]. discriminate. }
  subst u. destruct (check_cases _ _ _ _ _ _ _ K) as (Po & [(j & V & L & Cl & -> & _)|(j & i & p & V & L & N & Cr & Cl & H)]); rewrite Po.
  - left. exists j. split; [exact V|]. pose proof (clears_turn (nd_collision n) last ss (rollout j (nd_val_dt n) (lp_u l2) (lp_pose l2)) 0 ltac:(rewrite rollout_len; lia) Cl) as Q. rewrite rollout_len in Q. exact Q.
  - right. split; [exists j, (lp_u l2); split; [exact V|]; apply (crash_turn _ last ss _ i p); [lia|exact N|exact Cr|exact Cl]|]. destruct H as [(Sm & k0 & L1 & L2 & Cl2)|H]; [left|right; exact H].
    split; [exact Sm|]. exists k0. cbv zeta. pose proof (clears_turn (dw_collision (nd_dwa n)) last ss (rollout (Z.to_nat (dw_steps (nd_dwa n))) (dw_dt (nd_dwa n)) (lp_u l3) (lp_pose l2)) k0 ltac:(rewrite rollout_len; lia) Cl2) as Q. rewrite rollout_len in Q. exact Q.
Qed.
End Order.

(** ** The maps read are those of C84 *)
Lemma steps_reach ms (s : shared T) ss s' : steps ms s ss s' -> callbacks ms s s' /\ forall r, In r ss -> exists a b, ms = a ++ b /\ callbacks a s r.
Proof.
  induction 1 as [s|a ms s s1 ss s' C St (IH1 & IH2)]; [split; [constructor|intros r []]|]. split; [eapply cb_app; eauto|].
  intros r [<-|I]; [exists a, ms; auto|]. destruct (IH2 r I) as (a1 & b1 & -> & C1). exists (a ++ a1), b1. split; [apply app_assoc|]. eapply cb_app; eauto.
Qed.
Lemma fine_reach n s l evs s' l' : fine_exec n s l evs s' l' -> callbacks (fine_messages evs) s s' /\
  forall e r, In e evs -> In r (fe_test e :: fe_plan e :: fe_vb e :: fe_checks e) -> exists a b, fine_messages evs = a ++ b /\ callbacks a s r.
Proof.
  induction 1 as [s l|s l e s1 evs s' l' I P X (IH1 & IH2)]; [split; [constructor|intros e r []]|].
  assert (Q : callbacks (fe_msgs e) s s1 /\ forall r, In r (fe_test e :: fe_plan e :: fe_vb e :: fe_checks e) -> exists a b, fe_msgs e = a ++ b /\ callbacks a s r).
  { destruct I as [s lk draws test plan c1 vbm c2 last m0 m1 m2 m3 l0 l1 s3 out C0 C1 C2 C3 B]. cbn [fe_msgs fe_test fe_plan fe_vb fe_checks].
    destruct (steps_reach _ _ _ _ C2) as [C2' R]. split; [eapply cb_app; [exact C0|]; eapply cb_app; [exact C1|]; eapply cb_app; eauto|].
    assert (Rr : forall r, In r (c1 ++ vbm :: c2) -> exists a b, m0 ++ m1 ++ m2 ++ m3 = a ++ b /\ callbacks a s r).
    { intros r J. destruct (R r J) as (a & b & -> & Ca). exists (m0 ++ m1 ++ a), (b ++ m3). split; [rewrite <- !app_assoc; reflexivity|]. eapply cb_app; [exact C0|]. eapply cb_app; eauto. }
    intros r [<-|[<-|[<-|J]]].
    - exists m0, (m1 ++ m2 ++ m3). split; [reflexivity|exact C0].
    - exists (m0 ++ m1), (m2 ++ m3). split; [rewrite <- !app_assoc; reflexivity|]. eapply cb_app; eauto.
    - apply Rr. apply in_or_app. right. left. reflexivity.
    - apply Rr. apply in_app_or in J. apply in_or_app. destruct J as [J|J]; [left; exact J|right; right; exact J]. }
  destruct Q as [Q1 Q2]. unfold fine_messages. cbn [flat_map]. fold (fine_messages evs). split; [eapply cb_app; eauto|].
  intros e0 r [<-|J] K; [destruct (Q2 r K) as (a & b & -> & Ca); exists a, (b ++ fine_messages evs); split; [rewrite <- app_assoc; reflexivity|exact Ca]|].
  destruct (IH2 e0 r J K) as (a & b & -> & Ca). exists (fe_msgs e ++ a), b. split; [apply app_assoc|]. eapply cb_app; eauto.
Qed.
Lemma c89_maps n l evs s' l' e r : fine_exec n shared_init l evs s' l' -> In e evs -> In r (fe_test e :: fe_plan e :: fe_vb e :: fe_checks e) ->
  exists ms rest, fine_messages evs = ms ++ rest /\ consistent ms shared_init r.
Proof.
  intros X I R. destruct (proj2 (fine_reach _ _ _ _ _ _ X) e r I R) as (a & b & E & C). exists a, b. split; [exact E|]. apply c84_callbacks; [reflexivity|exact C].
Qed.

(** ** The executions of ExplorationModel are among these *)
Lemma validate_const c g u dt n : forall x gs k b, validate_loop n c g x u dt = Ok b -> (forall j, (k <= j)%nat -> gs j = g) -> exists k', validate_loop_at gs n c x u dt k = Ok (b, k').
Proof.
  induction n as [|n IH]; intros x gs k b H G; cbn [validate_loop validate_loop_at] in *; cbv zeta in *; [injection H as <-; eauto|].
  rewrite (G k) by lia. destruct (collisionCheck _ _ _ _) as [[|]| | |]; cbn [bind] in *; try discriminate; [injection H as <-; eauto|]. apply IH; [exact H|]. intros j J. apply G. lia.
Qed.
Lemma validate_ext c u dt n : forall x gs gs' k r k', validate_loop_at gs n c x u dt k = Ok (r, k') -> (forall j, (k <= j < k')%nat -> gs' j = gs j) ->
  validate_loop_at gs' n c x u dt k = Ok (r, k').
Proof.
  induction n as [|n IH]; intros x gs gs' k r k' H G; cbn [validate_loop_at] in *; cbv zeta in *; [exact H|].
  assert (K : (k < k')%nat).
  { destruct (collisionCheck _ _ _ _) as [[|]| | |]; cbn [bind] in H; try discriminate; [injection H as _ <-; lia|]. apply validate_at in H. lia. }
  rewrite (G k) by lia. destruct (collisionCheck _ _ _ _) as [[|]| | |]; cbn [bind] in *; try discriminate; [exact H|]. eapply IH; [exact H|]. intros j J. apply G. lia.
Qed.
Lemma objective_const d g u ref tf n : forall x t s gs k m, objective_loop n d g u ref tf x t s = Ok m -> (forall j, (k <= j)%nat -> gs j = g) ->
  exists k', objective_loop_at gs n d u ref tf x t s k = Ok (m, k').
Proof.
  induction n as [|n IH]; intros x t s gs k m H G; cbn [objective_loop objective_loop_at] in *; cbv zeta in *; [injection H as <-; eauto|].
  rewrite (G k) by lia. destruct (collisionCheck _ _ _ _) as [[|]| | |]; cbn [bind] in *; try discriminate; [injection H as <-; eauto|].
  destruct (ref_index _ _ _); cbn [bind] in *; try discriminate. destruct (col_at _ _); cbn [bind] in *; try discriminate. apply IH; [exact H|]. intros j J. apply G. lia.
Qed.
Lemma select_const (obj : vec3 T -> res T) obj' l k0 : (forall u k m, obj u = Ok m -> (k0 <= k)%nat -> exists k', obj' u k = Ok (m, k') /\ (k <= k')%nat) ->
  forall st k r, (k0 <= k)%nat -> select obj l st = Ok r -> exists k', select_at obj' l st k = Ok (r, k').
Proof.
  intros O. induction l as [|u l IH]; intros st k r K H; cbn [select select_at] in *; [injection H as <-; eauto|].
  destruct (obj u) as [m| | |] eqn:E; cbn [bind] in H; try discriminate. destruct (O u k m E K) as (k1 & -> & K1). cbn [bind]. apply IH; [lia|exact H].
Qed.
Lemma search_const d obj obj' vb k0 r : (forall u k m, obj u = Ok m -> (k0 <= k)%nat -> exists k', obj' u k = Ok (m, k') /\ (k <= k')%nat) ->
  dwa_search d obj vb = Ok r -> exists k', dwa_search_at d obj' vb k0 = Ok (r, k').
Proof.
  intros O. rewrite search_select, search_at_select. destruct (select _ _ _) as [[m u]| | |] eqn:E; cbn [bind]; try discriminate.
  destruct (select_const obj obj' _ k0 O _ k0 _ (le_n _) E) as (k' & ->). cbn [bind]. destruct (almost_equal _ _); intros H; injection H as <-; eauto.
Qed.
Lemma control_const d g gs x0 vb vref k0 r : (forall j, (k0 <= j)%nat -> gs j = g) -> dwa_control d g x0 vb vref = Ok r -> exists k', dwa_control_at gs d x0 vb vref k0 = Ok (r, k').
Proof.
  intros G. apply search_const. intros u k m H K. unfold objective_vref, objective_vref_at in *. destruct (validate_loop _ _ _ _ _ _) as [b| | |] eqn:V; cbn [bind] in H; try discriminate.
  destruct (validate_const _ _ _ _ _ _ gs k _ V ltac:(intros j J; apply G; lia)) as (k' & V'). rewrite V'. cbn [bind]. apply validate_at in V'. destruct V' as [L _].
  destruct b; cbn [negb] in *; injection H as <-; eauto.
Qed.
Lemma follow_const d g gs x0 vb ref dtr k0 r : (forall j, (k0 <= j)%nat -> gs j = g) -> dwa_follow d g x0 vb ref dtr = Ok r -> exists k', dwa_follow_at gs d x0 vb ref dtr k0 = Ok (r, k').
Proof.
  intros G. unfold dwa_follow, dwa_follow_at. cbv zeta. apply search_const. intros u k m H K. unfold objective_traj, objective_traj_at in *.
  destruct (objective_const _ _ _ _ _ _ _ _ _ gs k _ H ltac:(intros j J; apply G; lia)) as (k' & V'). exists k'. split; [exact V'|]. apply follow_at in V'. apply V'.
Qed.

Definition switch (k1 : nat) (g g' : grid T) (k : nat) : grid T := if (k <? k1)%nat then g else g'.
Lemma check_const n (l : loop T) o l' out : stage_check n l o = Ok (l', out) ->
  exists k1 k, (k1 <= k)%nat /\ stage_check_at (switch k1 (se_valid o) (se_dwa o)) n l (se_vb o) = Ok (l', out, k).
Proof.
  unfold stage_check, stage_check_at, validate_control, validate_control_at. destruct (num_steps _ _) as [st| | |]; cbn [bind]; try discriminate.
  destruct (validate_loop _ _ _ _ _ _) as [v| | |] eqn:V; cbn [bind]; try discriminate.
  destruct (validate_const _ _ _ _ _ _ (fun _ => se_valid o) 0 _ V ltac:(reflexivity)) as (k1 & V1).
  assert (V2 : validate_loop_at (switch k1 (se_valid o) (se_dwa o)) (Z.to_nat st) (nd_collision n) (lp_pose l) (lp_u l) (nd_val_dt n) 0 = Ok (v, k1)).
  { eapply validate_ext; [exact V1|]. intros j J. unfold switch. destruct (Nat.ltb_spec j k1); [reflexivity|lia]. }
  assert (G : forall j, (k1 <= j)%nat -> switch k1 (se_valid o) (se_dwa o) j = se_dwa o) by (intros j J; unfold switch; destruct (Nat.ltb_spec j k1); [lia|reflexivity]).
  destruct v; [intros H; injection H as <- <-; exists k1, k1; rewrite V2; split; [lia|reflexivity]|]. destruct (lp_follow l) eqn:F.
  - destruct (dwa_control _ _ _ _ _) as [[b u]| | |] eqn:D; cbn [bind]; try discriminate. destruct (control_const _ _ _ _ _ _ k1 _ G D) as (k & D').
    intros H. injection H as <- <-. exists k1, k. rewrite V2. cbn [bind]. rewrite D'. split; [|reflexivity].
    unfold dwa_control_at in D'. rewrite search_at_select in D'. destruct (select_at _ _ _ _) as [[[m w] k2]| | |] eqn:S; cbn [bind] in D'; try discriminate.
    assert (M : (k1 <= k2)%nat) by (eapply select_mono; [|exact S]; intros; eapply vref_at; eassumption). destruct (almost_equal _ _); injection D' as _ _ <-; exact M.
  - destruct (optTraj _) as [ref| | |]; cbn [bind]; try discriminate. destruct (dwa_follow _ _ _ _ _ _) as [[b u]| | |] eqn:D; cbn [bind]; try discriminate.
    destruct (follow_const _ _ _ _ _ _ _ k1 _ G D) as (k & D').
    assert (M : (k1 <= k)%nat).
    { unfold dwa_follow_at in D'. cbv zeta in D'. rewrite search_at_select in D'. destruct (select_at _ _ _ _) as [[[m w] k2]| | |] eqn:S; cbn [bind] in D'; try discriminate.
      assert (M : (k1 <= k2)%nat) by (eapply select_mono; [|exact S]; intros a j m' j' O; eapply follow_at; exact O). destruct (almost_equal _ _); injection D' as _ _ <-; exact M. }
    destruct b.
    + destruct (constTwistPath _ _ _ _) as [p| | |] eqn:Cp; cbn [bind]; try discriminate. intros H. injection H as <- <-. exists k1, k. split; [exact M|]. rewrite V2. cbn [bind]. rewrite D'. cbn [bind]. rewrite Cp. reflexivity.
    + intros H. injection H as <- <-. exists k1, k. split; [exact M|]. rewrite V2. cbn [bind]. rewrite D'. reflexivity.
Qed.
Lemma body_const n (l : loop T) o l' out : body n l o = Ok (l', out) ->
  exists k1 k, (k1 <= k)%nat /\ forall o', se_lookup o' = se_lookup o -> se_recv o' = se_recv o -> se_plan o' = se_plan o -> se_draws o' = se_draws o -> se_vb o' = se_vb o ->
    body_at (switch k1 (se_valid o) (se_dwa o)) n l o' = Ok (l', out, k).
Proof.
  unfold body, body_at. cbv zeta. intros H. destruct (se_recv o && _)%bool eqn:A.
  - destruct (stage_plan _ _) as [[l1 o1]| | |] eqn:P; cbn [bind] in H; try discriminate. destruct (stage_check _ _ _) as [[l2 o2]| | |] eqn:C; cbn [bind] in H; try discriminate.
    injection H as <- <-. destruct (check_const _ _ _ _ _ C) as (k1 & k & L & Q). exists k1, k. split; [exact L|]. intros o' E1 E2 E3 E4 E5. rewrite E1, E2, A, E5.
    assert (P' : stage_plan (stage_count n (stage_lookup l (se_lookup o))) o' = Ok (l1, o1)) by (unfold stage_plan in *; rewrite E3, E4; exact P). rewrite P'. cbn [bind]. rewrite Q. reflexivity.
  - injection H as <- <-. exists 0%nat, 0%nat. split; [lia|]. intros o' E1 E2 _ _ _. rewrite E1, E2, A. reflexivity.
Qed.
Lemma body_at_ext gs gs' n (l : loop T) o : (forall k, gs k = gs' k) -> body_at gs n l o = body_at gs' n l o.
Proof.
  intros G. unfold body_at. cbv zeta. destruct (_ && _)%bool; [|reflexivity]. destruct (stage_plan _ _) as [[l1 o1]| | |]; cbn [bind]; try reflexivity.
  assert (V : forall m c u dt x k, validate_loop_at gs m c x u dt k = validate_loop_at gs' m c x u dt k).
  { induction m as [|m IH]; intros; cbn [validate_loop_at]; cbv zeta; [reflexivity|]. rewrite G. destruct (collisionCheck _ _ _ _) as [[|]| | |]; cbn [bind]; auto. }
  assert (O : forall m d u ref tf x t s k, objective_loop_at gs m d u ref tf x t s k = objective_loop_at gs' m d u ref tf x t s k).
  { induction m as [|m IH]; intros; cbn [objective_loop_at]; cbv zeta; [reflexivity|]. rewrite G. destruct (collisionCheck _ _ _ _) as [[|]| | |]; cbn [bind]; auto.
    destruct (ref_index _ _ _); cbn [bind]; auto. destruct (col_at _ _); cbn [bind]; auto. }
  assert (Se : forall obj obj' : vec3 T -> nat -> res (T * nat), (forall u k, obj u k = obj' u k) -> forall l st k, select_at obj l st k = select_at obj' l st k).
  { intros obj obj' E. induction l0 as [|u l0 IH]; intros; cbn [select_at]; [reflexivity|]. rewrite E. destruct (obj' u k) as [[? ?]| | |]; cbn [bind]; auto. }
  unfold stage_check_at, validate_control_at. destruct (num_steps _ _); cbn [bind]; try reflexivity. rewrite V.
  destruct (validate_loop_at _ _ _ _ _ _ _) as [[[|] k1]| | |]; cbn [bind]; try reflexivity. destruct (lp_follow _).
  - unfold dwa_control_at. rewrite !search_at_select. erewrite Se; [reflexivity|]. intros u k. unfold objective_vref_at. rewrite V. reflexivity.
  - destruct (optTraj _); cbn [bind]; try reflexivity. unfold dwa_follow_at. cbv zeta. rewrite !search_at_select. erewrite Se; [reflexivity|]. intros u k. unfold objective_traj_at. apply O.
Qed.
Lemma steps_app a : forall s ss (s1 : shared T), steps a s ss s1 -> forall b ss' s2, steps b s1 ss' s2 -> steps (a ++ b) s (ss ++ ss') s2.
Proof. induction 1 as [s|a ms s s1 ss s' C St IH]; intros b ss' s2 H; [exact H|]. rewrite <- app_assoc. cbn [app]. econstructor; [exact C|]. apply IH, H. Qed.
Lemma steps_stay (s : shared T) k : steps [] s (repeat s k) s.
Proof. induction k as [|k IH]; [constructor|]. cbn [repeat]. exact (steps_cons [] [] s s (repeat s k) s (cb_none s) IH). Qed.
Lemma nth_repeat_below {A} (a x : A) k : forall j, (j < k)%nat -> nth j (repeat a k) x = a.
Proof. induction k as [|k IH]; intros [|j] J; cbn; try lia; [reflexivity|apply IH; lia]. Qed.
Lemma c89_coarse n s l evs s' l' : exec n s l evs s' l' -> exists fevs, fine_exec n s l fevs s' l' /\ map fe_out fevs = map ev_out evs /\
  map fe_pre fevs = map ev_pre evs /\ fine_messages fevs = messages evs.
Proof.
  induction 1 as [s l|s l e s1 evs s' l' I P X (fevs & IH1 & IH2 & IH3 & IH4)]; [exists []; repeat split; constructor|].
  destruct I as [s lk draws t early a1 a2 a3 a4 a5 l0 l0' s1 out C0 C1 C2 C3 C4 C5 B]. cbn [ev_pre ev_post ev_out] in *. subst l0.
  destruct (body_const _ _ _ _ _ B) as (k1 & k & L & Q). unfold view in Q. cbn [se_valid se_dwa se_lookup se_recv se_plan se_draws se_vb] in Q.
  assert (St : exists m2, m2 = a2 ++ a3 /\ steps m2 (mo_plan t) (repeat (mo_check t) k1 ++ mo_dwa t :: repeat (mo_dwa t) (k - k1)) (mo_dwa t)).
  { exists (a2 ++ a3). split; [reflexivity|]. destruct k1 as [|k1].
    - cbn [repeat app]. rewrite <- (app_nil_r (a2 ++ a3)). econstructor; [eapply cb_app; eauto|]. apply steps_stay.
    - apply (steps_app a2 _ _ (mo_check t)); [cbn [repeat]; rewrite <- (app_nil_r a2); econstructor; [exact C2|apply steps_stay]|].
      rewrite <- (app_nil_r a3). econstructor; [exact C3|apply steps_stay]. }
  destruct St as (m2 & E2 & St).
  pose proof (fine_intro n s lk draws (mo_test t) (mo_plan t) (repeat (mo_check t) k1) (mo_dwa t) (repeat (mo_dwa t) (k - k1)) (mo_dwa t) early a1 m2 (a4 ++ a5) l l0' s1 out
    C0 C1 St (cb_app _ _ _ C4 _ _ C5)) as It.
  assert (Bo : body_at (maps (mo_dwa t) (repeat (mo_check t) k1 ++ repeat (mo_dwa t) (k - k1))) n l
    (mkSeen lk (sh_recv (mo_test t)) (sh_grid (mo_plan t)) draws (sh_grid (mo_plan t)) (sh_grid (mo_plan t)) (sh_vb (mo_dwa t))) =
    Ok (l0', out, length (repeat (mo_check t) k1 ++ repeat (mo_dwa t) (k - k1)))).
  { rewrite app_length, !repeat_length. replace (k1 + (k - k1))%nat with k by lia. rewrite <- (Q (mkSeen lk (sh_recv (mo_test t)) (sh_grid (mo_plan t)) draws (sh_grid (mo_plan t)) (sh_grid (mo_plan t)) (sh_vb (mo_dwa t)))) by reflexivity.
    apply body_at_ext. intros j. unfold maps, switch. destruct (Nat.ltb_spec j k1).
    - rewrite app_nth1 by (rewrite repeat_length; lia). f_equal. apply nth_repeat_below. lia.
    - rewrite app_nth2 by (rewrite repeat_length; lia). f_equal. apply nth_repeat. }
  specialize (It Bo). eexists (_ :: fevs). split; [econstructor; [exact It|reflexivity|exact IH1]|]. cbn [map fe_out fe_pre ev_out ev_pre]. rewrite IH2, IH3.
  split; [reflexivity|]. split; [reflexivity|]. unfold fine_messages, messages in *. cbn [flat_map fe_msgs ev_early ev_late]. rewrite IH4, E2, <- !app_assoc. reflexivity.
Qed.
End Any.
