(** Examples for PropFree. *)
From Coq Require Import ZArith List Bool.
From Flocq Require Import IEEE754.BinarySingleNaN.
From Verif Require Import Outcome Num Float64 GridModel CollisionModel NumericsModel BufferModel DwaModel ErgodicModel ExplorationModel
  Spec SpecDwa SpecExploration SpecFree ExplorationProofs PropMappingAux PropDwaAux PropExplorationAux.
Import ListNotations.
Local Open Scope Z_scope.

Definition open_b (thr : b64) (d : list Z) : bool := forallb (fun v => @nlt b64 NN (@ndiv b64 NN (@nofZ b64 NN v) (@nofZ b64 NN 100)) thr) d.
Lemma open_test thr d : open_b thr d = true -> @open_data b64 NN thr d.
Proof. intros H v I. exact (proj1 (forallb_forall _ _) H v I). Qed.
Definition maps_of (ms : list (message b64)) : list (list Z) := flat_map (fun m => match m with MMap m => [m_data m] | MOdom _ => [] end) ms.
Lemma maps_in m ms : In (MMap m) ms -> In (m_data m) (maps_of ms).
Proof. intros I. apply in_flat_map. exists (MMap m). split; [exact I|left; reflexivity]. Qed.
(** One iteration with one map and a command that moves the robot *)
Definition moved (thr : b64) (evs : list (event b64)) : bool :=
  match evs with
  | [e] => match commands (ev_out e) with [u] => Bltb (v0 u) z0 | _ => false end && match maps_of (messages evs) with [d] => open_b thr d | _ => false end
  | _ => false
  end.
Definition percent : params b64 :=
  mkParams (b 1 (-1)) (b 1 0) (b 1 0) z0 z0 (b (-1) 0) z0 z0 (b 4 0) z0 z0
    (b 1 0) (b 2 0) (b 1 (-1)) (b 50 0) (b 1 (-1)) (b 3 (-1)) (b 1 0) (b 64 0) 2 10 5 [b 1 0; b 1 0]
    (b 1 (-1)) (b 1 0) (b 1 0) 3 0 1 [((b 1 0, b 5 0), (b 1 0, b 1 0))].
Lemma open_script : scene usual [([MM 200], [], home)] (fun n evs s l => moved (pa_occupied_threshold usual) evs) = true.
Proof. vm_compute. reflexivity. Qed.
Lemma percent_script : scene percent [([MM 53], [], home)] (fun n evs s l => moved (pa_occupied_threshold percent) evs &&
  match evs with [e] => match commands (ev_out e) with [u] => match @validate_control b64 NN (mkCollision (b 1 0) (b 2 0) (b 1 (-1)) (b 1 (-1))) (check_map e) (ev_pose e) u (b 1 (-1)) (b 1 0) with Ok v => negb v | _ => false end | _ => false end | _ => false end &&
  forallb (fun d => forallb (fun v => (-128 <=? v) && (v <=? 127))%Z d) (maps_of (messages evs))) = true.
Proof. vm_compute. reflexivity. Qed.
Lemma moved_inv thr evs : moved thr evs = true -> exists e u, evs = [e] /\ In (Cmd u) (ev_out e) /\ Bltb (v0 u) (B754_zero false) = true /\ @open_maps b64 NN thr (messages evs).
Proof.
  unfold moved. destruct evs as [|e [|]]; try discriminate. intros H. apply andb_true_iff in H. destruct H as [A B].
  destruct (commands (ev_out e)) as [|u [|]] eqn:C; try discriminate. exists e, u. split; [reflexivity|]. split; [apply cmd_in, C|]. split; [exact A|].
  intros m I. destruct (maps_of (messages [e])) as [|d [|]] eqn:D; try discriminate. apply maps_in in I. rewrite D in I. destruct I as [<-|[]]. apply open_test, B.
Qed.
Lemma open_exec : exists (L : libm) p n l evs s l' e u, @cart_node b64 (F64 L) p = Ok (Some (n, l)) /\ @exec b64 (F64 L) n (@shared_init b64 (F64 L)) l evs s l' /\
  @open_maps b64 (F64 L) (pa_occupied_threshold p) (messages evs) /\ In e evs /\ In (Cmd u) (ev_out e) /\ Bltb (v0 u) (B754_zero false) = true.
Proof.
  destruct (scene_exec _ _ _ open_script) as (n & l & evs & s & l' & C & X & _ & T). destruct (moved_inv _ _ T) as (e & u & E & I & M & O).
  exists node_libm, usual, n, l, evs, s, l', e, u. split; [exact C|]. split; [exact X|]. split; [exact O|]. split; [rewrite E; left; reflexivity|]. split; assumption.
Qed.
Lemma percent_exec : exists (L : libm) p n l evs s l' e u, @cart_node b64 (F64 L) p = Ok (Some (n, l)) /\ @exec b64 (F64 L) n (@shared_init b64 (F64 L)) l evs s l' /\
  @nlt b64 (F64 L) (@ndiv b64 (F64 L) (@nofZ b64 (F64 L) 127) (@nofZ b64 (F64 L) 100)) (pa_occupied_threshold p) = true /\ byte_maps (messages evs) /\ In e evs /\ In (Cmd u) (ev_out e) /\
  @validate_control b64 (F64 L) (mkCollision (pa_boundary_radius p) (pa_search_radius p) (pa_obstacle_threshold p) (@ndiv b64 (F64 L) (pa_occupied_threshold p) (@nofZ b64 (F64 L) 100)))
    (check_map e) (ev_pose e) u (pa_val_dt p) (pa_val_horizon p) = Ok false.
Proof.
  destruct (scene_exec _ _ _ percent_script) as (n & l & evs & s & l' & C & X & _ & T). cbv beta in T. apply andb_true_iff in T. destruct T as [T T2]. apply andb_true_iff in T. destruct T as [T1 T3].
  destruct (moved_inv _ _ T1) as (e & u & E & I & _ & _). exists node_libm, percent, n, l, evs, s, l', e, u. split; [exact C|]. split; [exact X|].
  split; [vm_compute; reflexivity|]. split; [intros m J; apply maps_in in J; pose proof (proj1 (forallb_forall _ _) T2 _ J) as F; apply Forall_forall; intros v K;
    pose proof (proj1 (forallb_forall _ _) F v K) as G; apply andb_true_iff in G; destruct G as [G1 G2]; apply Z.leb_le in G1; apply Z.leb_le in G2; split; assumption|].
  split; [rewrite E; left; reflexivity|]. split; [exact I|]. clear C X T1 T2. subst evs. destruct (commands (ev_out e)) as [|w [|]] eqn:K; try discriminate.
  assert (w = u) as -> by (apply in_split in I; assert (Q : In u (commands (ev_out e))) by (apply in_flat_map; exists (Cmd u); split; [destruct I as (a & c & ->); apply in_or_app; right; left; reflexivity|left; reflexivity]); rewrite K in Q; destruct Q as [Q|[]]; exact Q).
  clear - T3. assert (Q : @ndiv b64 NN (pa_occupied_threshold percent) (@nofZ b64 NN 100) = b 1 (-1)) by (apply B2SF_inj; vm_compute; reflexivity).
  unfold NN in Q. rewrite Q. cbn [percent pa_boundary_radius pa_search_radius pa_obstacle_threshold pa_val_dt pa_val_horizon].
  fold NN. destruct (@validate_control b64 NN _ _ _ _ _ _) as [[|]| | |]; try discriminate. reflexivity.
Qed.
