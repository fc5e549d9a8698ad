(** Published velocities in binary64. *)
From Coq Require Import Reals ZArith List Bool Lia Lra.
From Flocq Require Import Core.Core IEEE754.BinarySingleNaN.
From Verif Require Import Outcome Num Float64 FloatLemmas GridModel CollisionModel NumericsModel BufferModel BasisModel RobotModel DwaModel ErgodicModel
  ExplorationModel SpecDwa SpecErgodic SpecExploration SpecLimits
  NumericsProofs AngleFloat DwaProofs ErgodicProofs ErgodicFloat ExplorationProofs WindowFloat.
Import ListNotations ExplorationModel.
Local Open Scope R_scope.
Ltac Zify.zify_post_hook ::= idtac.

Section Limits.
Variable L : libm.
Local Instance inst : Num b64 := F64 L.

(** ** The parts of a node *)
Definition node64 (om : bool) (p : params b64) : res (setup b64) := if om then omni_node p else cart_node p.
Record built64 (om : bool) (p : params b64) (n : node b64) (l : loop b64) (e0 : ec b64) : Prop := {
  bf_made : constructed e0;
  bf_umin : ec_umin e0 = lower64 om p;
  bf_umax : ec_umax e0 = upper64 om p;
  bf_ec : history e0 (lp_ec l);
  bf_u : lp_u l = zero3;
  bf_min : dw_min (nd_dwa n) = lower64 om p;
  bf_max : dw_max (nd_dwa n) = upper64 om p;
  bf_r0 : Bmult mode_NE (v0 (dw_acc (nd_dwa n))) (dw_acc_dt (nd_dwa n)) = v0 (reach64 om p);
  bf_r1 : Bmult mode_NE (v1 (dw_acc (nd_dwa n))) (dw_acc_dt (nd_dwa n)) = v1 (reach64 om p);
  bf_r2 : Bmult mode_NE (v2 (dw_acc (nd_dwa n))) (dw_acc_dt (nd_dwa n)) = v2 (reach64 om p);
  bf_nx : dw_nx (nd_dwa n) = count_x p;
  bf_ny : dw_ny (nd_dwa n) = count_y om p;
  bf_nth : dw_nth (nd_dwa n) = count_th p }.
Lemma max1 n : (0 <= n)%Z -> (if (n =? 0)%Z then 1%Z else n) = Z.max 1 n.
Proof. intros H. destruct (Z.eqb_spec n 0); lia. Qed.
Lemma start_built64 om model Rinv umin umax acc_y max_y min_y vy (p : params b64) n l : sane_counts p ->
  start model Rinv umin umax acc_y max_y min_y vy p = Ok (Some (n, l)) ->
  umin = lower64 om p -> umax = upper64 om p ->
  Bmult mode_NE acc_y (pa_acc_dt p) = v1 (reach64 om p) -> max_y = v1 (upper64 om p) -> min_y = v1 (lower64 om p) ->
  (if (vy =? 0)%Z then 1%Z else vy) = count_y om p ->
  exists e0, built64 om p n l e0.
Proof.
  intros ((S1 & S2 & S3) & S4 & S5 & S6) H U1 U2 A B1 B2 Cy. unfold start in H.
  destruct (gaussians_of _) as [gs| | |]; cbn [bind] in H; try discriminate. destruct (collision_ctor _ _ _ _) as [c| | |]; cbn [bind] in H; try discriminate.
  destruct (ec_ctor _ _ _ _ _ _ _ _ _ _ _) as [e0| | |] eqn:E; cbn [bind] in H; try discriminate.
  destruct (dwa_ctor _ _ _ _ _ _ _ _ _ _ _ _ _ _ _ _) as [d| | |] eqn:D; cbn [bind] in H; try discriminate. destruct (nlt _ _); [discriminate|].
  injection H as <- <-. exists e0.
  assert (S7 : (0 <= pa_buffer_size p < two32)%Z) by (change two32 with (2 ^ 32)%Z; lia).
  assert (K : constructed e0).
  { do 11 eexists. split; [|exact E]. change two32 with (2 ^ 32)%Z. lia. }
  destruct (ctor_inv _ _ _ _ _ _ _ _ _ _ _ _ S1 S7 E) as (_ & Q & _).
  unfold dwa_ctor in D. destruct (num_steps (pa_dwa_dt p) (pa_dwa_horizon p)) as [st| | |] eqn:N; cbn [bind] in D; try discriminate.
  assert (OE : forall A (a b : A), Ok a = Ok b -> a = b) by (intros A0 a b HH; injection HH; auto). apply OE in D. subst d. rewrite Q. subst umin umax max_y min_y.
  split; cbn [nd_dwa nd_collision dw_min dw_max dw_acc dw_acc_dt dw_nx dw_ny dw_nth v0 v1 v2
    ec_umin ec_umax loop_init lp_ec lp_u]; try reflexivity; try exact A; try exact Cy.
  - rewrite <- Q. exact K.
  - eapply history_snoc; [constructor|constructor].
  - apply max1. lia.
  - apply max1. lia.
Qed.
Lemma node_built64 om p n l : sane_counts p -> node64 om p = Ok (Some (n, l)) -> exists e0, built64 om p n l e0.
Proof.
  intros S H. destruct om; unfold node64, omni_node, cart_node in H.
  - destruct (weight_at p 0); cbn [bind] in H; try discriminate. destruct (weight_at p 1); cbn [bind] in H; try discriminate.
    destruct (weight_at p 2); cbn [bind] in H; try discriminate. eapply start_built64; [exact S|exact H|try reflexivity..].
    apply max1. destruct S. lia.
  - destruct (weight_at p 0); cbn [bind] in H; try discriminate. destruct (weight_at p 1); cbn [bind] in H; try discriminate.
    eapply start_built64; [exact S|exact H|reflexivity..].
Qed.

(** ** The velocity the callbacks leave *)
Definition wide_write64 om p (w : write b64) : Prop :=
  match w with
  | WVx x => recoverable_axis (v0 (lower64 om p)) (v0 (upper64 om p)) (v0 (reach64 om p)) x
  | WVy x => recoverable_axis (v1 (lower64 om p)) (v1 (upper64 om p)) (v1 (reach64 om p)) x
  | WVw x => recoverable_axis (v2 (lower64 om p)) (v2 (upper64 om p)) (v2 (reach64 om p)) x
  | _ => True end.
Definition wide64 om p (s : shared b64) : Prop := recoverable64 om p (sh_vb s) /\ Forall (wide_write64 om p) (sh_todo s).
Lemma zero_recoverable lo hi r : sane_axis lo hi r -> recoverable_axis lo hi r (b64_ofZ 0).
Proof. intros (_ & _ & _ & A & B & C). destruct zero_val as [Z1 Z2]. split; [exact Z2|]. rewrite Z1. lra. Qed.
Lemma wide_init64 om p : sane_limits64 om p -> wide64 om p shared_init.
Proof. intros (A & B & C). split; [|constructor]. split; [|split]; apply zero_recoverable; assumption. Qed.
Lemma wide_callbacks64 om p ms s s' : callbacks ms s s' -> odometry_ok64 om p ms -> wide64 om p s -> wide64 om p s'.
Proof.
  induction 1 as [s|m ms s s' E C IH|w rest ms s s' E C IH]; intros O W; [exact W| |].
  - apply IH; [intros v I; apply O; right; exact I|]. destruct W as [W _]. split; [exact W|]. cbn [sh_todo]. destruct m as [m|v]; cbn [writes_of].
    + unfold map_writes. repeat constructor.
    + destruct (O v (or_introl eq_refl)) as (A & B & D). unfold odom_writes. repeat (constructor; [assumption|]). constructor.
  - apply IH; [exact O|]. destruct W as [(W0 & W1 & W2) F]. rewrite E in F. inversion F as [|? ? F1 F2]; subst. split; [|exact F2].
    unfold recoverable64. destruct w; cbn [do_write sh_vb write_vb v0 v1 v2 wide_write64] in *; auto.
Qed.
Lemma ok_app64 om p a b : odometry_ok64 om p (a ++ b) <-> odometry_ok64 om p a /\ odometry_ok64 om p b.
Proof.
  unfold odometry_ok64. split; [intros H; split; intros v I; apply H, in_or_app; auto|]. intros [A B] v I. apply in_app_or in I. destruct I; auto.
Qed.
Lemma wide_iteration64 om p n s e s' : iteration n s e s' -> odometry_ok64 om p (ev_early e ++ ev_late e) -> wide64 om p s ->
  wide64 om p (mo_dwa (ev_at e)) /\ wide64 om p s'.
Proof.
  intros []. cbn [ev_early ev_late ev_at]. rewrite !ok_app64. intros (O0 & O1 & O2 & O3 & O4 & O5) W.
  assert (W3 : wide64 om p (mo_dwa t)) by (do 4 (eapply wide_callbacks64; [eassumption|assumption|]); exact W).
  split; [exact W3|]. do 2 (eapply wide_callbacks64; [eassumption|assumption|]). exact W3.
Qed.

(** ** C75 *)
Lemma counts_le om p : sane_counts p -> (0 <= count_x p <= 1048576 /\ 0 <= count_y om p <= 1048576 /\ 0 <= count_th p <= 1048576)%Z.
Proof.
  intros (_ & A & B & C). change (2 ^ 20)%Z with 1048576%Z in *. unfold count_x, count_y, count_th. destruct om; lia.
Qed.
Lemma sampled_box64 om p (n : node b64) l e0 vb u : built64 om p n l e0 -> sane_counts p -> sane_limits64 om p -> recoverable64 om p vb ->
  sampled (nd_dwa n) vb u -> nearly_in_box om p u.
Proof.
  intros B Sc (L0 & L1 & L2) (V0 & V1 & V2) (A0 & A1 & A2). destruct (counts_le om p Sc) as (C0 & C1 & C2).
  rewrite (bf_min _ _ _ _ _ B), (bf_max _ _ _ _ _ B) in *.
  pose proof (bf_r0 _ _ _ _ _ B) as Q0. pose proof (bf_r1 _ _ _ _ _ B) as Q1. pose proof (bf_r2 _ _ _ _ _ B) as Q2.
  rewrite (bf_nx _ _ _ _ _ B) in A0. rewrite (bf_ny _ _ _ _ _ B) in A1. rewrite (bf_nth _ _ _ _ _ B) in A2.
  rewrite <- Q0 in L0, V0. rewrite <- Q1 in L1, V1. rewrite <- Q2 in L2, V2.
  split; [|split]; (eapply on_axis_b64; [eassumption|eassumption| |eassumption]); lia.
Qed.
Lemma zero_box64 om p : sane_counts p -> sane_limits64 om p -> nearly_in_box om p zero3.
Proof.
  intros Sc (L0 & L1 & L2). destruct (counts_le om p Sc) as (C0 & C1 & C2).
  split; [|split]; (eapply zero_nearly; [|eassumption]); lia.
Qed.
Lemma search_box64 om p (n : node b64) l e0 vb obj b u : built64 om p n l e0 -> sane_counts p -> sane_limits64 om p -> recoverable64 om p vb ->
  dwa_search (nd_dwa n) obj vb = Ok (b, u) -> nearly_in_box om p u.
Proof.
  intros B Sc S V H. destruct b.
  - apply (@search_true b64 inst Bltb_trans Bltb_irrefl (max_max64 L)) in H. destruct H as [H _]. eapply sampled_box64; eauto.
  - apply (@search_false b64 inst Bltb_trans Bltb_irrefl) in H. destruct H as (m & _ & _ & [[_ ->]|[H _]]); [|eapply sampled_box64; eauto].
    exact (zero_box64 om p Sc S).
Qed.
Definition running_ok64 om p (e0 : ec b64) (l : loop b64) : Prop := history e0 (lp_ec l) /\ nearly_in_box om p (lp_u l).
Lemma sane_leb lo hi r : sane_axis lo hi r -> Bleb lo hi = true.
Proof. intros (A & B & _ & C & D & _). rewrite Bleb_R by assumption. apply Rle_bool_true. lra. Qed.
Lemma history_control64 om p n l0 e0 (e : ec b64) g x draws u e' : built64 om p n l0 e0 -> sane_counts p -> sane_limits64 om p -> history e0 e ->
  ec_control e g x draws = Ok (u, e') -> history e0 e' /\ nearly_in_box om p u.
Proof.
  intros B Sc (L0 & L1 & L2) H C. split; [eapply history_snoc; [exact H|econstructor; exact C]|].
  pose proof (bf_umin _ _ _ _ _ B) as U1. pose proof (bf_umax _ _ _ _ _ B) as U2.
  assert (Lm : limits64 e0) by (unfold limits64; rewrite U1, U2; repeat split; eapply sane_leb; eassumption).
  destruct (c55_64 L e0 e (bf_made _ _ _ _ _ B) Lm H) as [_ Q].
  destruct (proj1 (Q _ _ _ _ _ C)) as (W0 & W1 & W2). rewrite U1, U2 in *. destruct (counts_le om p Sc) as (C0 & C1 & C2).
  split; [|split]; (eapply within_nearly; [|eassumption|eassumption]); lia.
Qed.
Lemma body_ok64 om p n l0 e0 l o l' out : built64 om p n l0 e0 -> sane_counts p -> sane_limits64 om p -> recoverable64 om p (se_vb o) -> running_ok64 om p e0 l ->
  body n l o = Ok (l', out) -> running_ok64 om p e0 l'.
Proof.
  intros B Sc S V (H & U) K. apply body_inv in K. cbv zeta in K. set (x := stage_lookup l (se_lookup o)) in *.
  assert (X : running_ok64 om p e0 x).
  { unfold x. destruct (se_lookup o); [|split; assumption]. split; [|exact U]. cbn [stage_lookup lp_ec]. eapply history_snoc; [exact H|constructor]. }
  clearbody x. clear H U. destruct K as [(_ & -> & _)|(_ & e & u & o1 & o2 & P & C & _)]; [exact X|]. destruct X as [H U].
  assert (Q : history e0 e /\ nearly_in_box om p u).
  { destruct P as [_|u e tr _ P _]; [split; assumption|]. eapply history_control64; eauto. }
  destruct Q as [Q1 Q2]. destruct C as [_|b v _ _ D|ref v tr _ _ _ D _|ref v _ _ _ D]; (split; [exact Q1|]); cbn [lp_u]; [exact Q2| | |];
    (eapply search_box64; [exact B|exact Sc|exact S|exact V|exact D]).
Qed.
Lemma exec_ok64 om p n l0 e0 s l evs s' l' : built64 om p n l0 e0 -> sane_counts p -> sane_limits64 om p -> exec n s l evs s' l' -> odometry_ok64 om p (messages evs) ->
  wide64 om p s -> running_ok64 om p e0 l -> wide64 om p s' /\ running_ok64 om p e0 l'.
Proof.
  intros B Sc S. induction 1 as [s l|s l e s1 evs s' l' I P X IH]; intros O W G; [split; assumption|].
  unfold messages in O. cbn [flat_map] in O. rewrite ok_app64 in O. destruct O as [O1 O2]. pose proof (wide_iteration64 _ _ _ _ _ _ I O1 W) as [W1 W2].
  apply IH; [exact O2|exact W2|]. subst l. eapply body_ok64; [exact B|exact Sc|exact S| |exact G|exact (iteration_body _ _ _ _ I)]. exact (proj1 W1).
Qed.
Lemma c75_b64 om p n l0 evs s l e u : sane_counts p -> sane_limits64 om p -> node64 om p = Ok (Some (n, l0)) ->
  exec n shared_init l0 evs s l -> odometry_ok64 om p (messages evs) -> In e evs -> In (Cmd u) (ev_out e) -> nearly_in_box om p u.
Proof.
  intros Z S N X O I C. destruct (node_built64 _ _ _ _ Z N) as (e0 & B). apply In_nth_error in I. destruct I as [k K].
  apply nth_error_split in K. destruct K as (a & b & -> & _). apply exec_app in X. destruct X as (s1 & l1 & X1 & X2).
  assert (O' : odometry_ok64 om p (messages (a ++ [e]))).
  { intros v J. apply O. unfold messages in *. rewrite flat_map_app in *. cbn [flat_map] in *. rewrite app_nil_r in J. apply in_or_app. apply in_app_or in J. destruct J; [auto|right; apply in_or_app; auto]. }
  inversion X2 as [|? ? ? s2 ? ? ? I P X3]; subst.
  assert (X4 : exec n shared_init l0 (a ++ [e]) s2 (ev_post e)).
  { apply exec_app. exists s1, (ev_pre e). split; [exact X1|]. econstructor; [exact I|reflexivity|constructor]. }
  assert (G : running_ok64 om p e0 l0).
  { split; [exact (bf_ec _ _ _ _ _ B)|]. rewrite (bf_u _ _ _ _ _ B). exact (zero_box64 om p Z S). }
  destruct (exec_ok64 _ _ _ _ _ _ _ _ _ _ B Z S X4 O' (wide_init64 _ _ S) G) as (_ & _ & Q).
  apply iteration_body, body_inv in I. cbv zeta in I. destruct I as [(_ & _ & E)|(_ & ee & w & o1 & o2 & P1 & P2 & E)].
  - rewrite E in C. destruct C.
  - rewrite E in C. rewrite (in_cmd _ _ _ _ _ _ _ _ _ P1 P2 C). exact Q.
Qed.
End Limits.

(** ** C52 *)
Lemma sampled_near (L : libm) d vb u : sane_window d vb -> @sampled b64 (F64 L) d vb u -> near_limits d u.
Proof.
  intros ((A & A') & (B & B') & (C & C') & Nx & Ny & Nt) (S0 & S1 & S2). change (2 ^ 20)%Z with 1048576%Z in *.
  split; [|split]; (eapply on_axis_b64; [eassumption|eassumption| |eassumption]); lia.
Qed.
Lemma search_near (L : libm) d obj vb b u : sane_window d vb -> @dwa_search b64 (F64 L) d obj vb = Ok (b, u) -> near_limits d u.
Proof.
  intros S H. destruct b.
  - apply (@search_true b64 (F64 L) Bltb_trans Bltb_irrefl (max_max64 L)) in H. destruct H as [H _]. eapply sampled_near; eauto.
  - apply (@search_false b64 (F64 L) Bltb_trans Bltb_irrefl) in H. destruct H as (m & _ & _ & [[_ ->]|[H _]]); [|eapply sampled_near; eauto].
    destruct S as ((A & _) & (B & _) & (C & _) & Nx & Ny & Nt). split; [|split]; (eapply zero_nearly; [|eassumption]); lia.
Qed.
Lemma control_near (L : libm) d g x0 vb vref b u : sane_window d vb -> @dwa_control b64 (F64 L) d g x0 vb vref = Ok (b, u) -> near_limits d u.
Proof. intros S H. eapply search_near; [exact S|exact H]. Qed.
Lemma follow_near (L : libm) d g x0 vb ref dtr b u : sane_window d vb -> @dwa_follow b64 (F64 L) d g x0 vb ref dtr = Ok (b, u) -> near_limits d u.
Proof. intros S H. eapply search_near; [exact S|exact H]. Qed.
