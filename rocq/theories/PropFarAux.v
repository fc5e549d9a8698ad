(** Concrete runs for PropFar: a target 1000 m away. *)
From Coq Require Import ZArith List Bool Lia.
From Flocq Require Import IEEE754.BinarySingleNaN.
From Verif Require Import Outcome Num Float64 FloatLemmas GridModel CollisionModel NumericsModel BufferModel BasisModel RobotModel DwaModel ErgodicModel ExplorationModel
  SpecDwa SpecExploration SpecFar ExplorationProofs FarProofs PropMappingAux PropDwaAux PropExplorationAux.
Import ListNotations ExplorationModel.
Local Open Scope Z_scope.
Ltac Zify.zify_post_hook ::= idtac.

Lemma c90_far (L : libm) p g : underflows L -> far_away L p g -> out_of_sight L p g.
Proof.
  intros U (nx & ny & Ax & Ay & Rx & Ry & H). exists nx, ny. split; [exact Ax|]. split; [exact Ay|]. split; [exact Rx|]. split; [exact Ry|].
  intros ms a i j M K I J. exists false. specialize (H ms i j M I J). apply U in H. unfold gaussian_ctor in K. cbv zeta in K. destruct (_ || _)%bool; [discriminate|]. apply Ok_inj in K. subst a.
  exact H.
Qed.

(** The elementary functions of the other runs, with an exponential that underflows *)
Definition dark_libm : libm := {| m_sin := m_sin node_libm; m_cos := m_cos node_libm; m_exp := fun x => if Bltb x (b64_ofZ (-746)) then B754_zero false else b 1 0;
  m_log := m_log node_libm; m_atan2 := m_atan2 node_libm; m_pow := m_pow node_libm |}.
Definition ND : Num b64 := F64 dark_libm.
Lemma dark_underflows : underflows dark_libm.
Proof. intros x H. cbn [dark_libm m_exp]. rewrite H. reflexivity. Qed.
(** The parameters [usual], validation horizon [vh], a target with standard deviation 1 m at (1000, 1000) *)
Definition remote (vh : b64) : params b64 :=
  mkParams (b 1 (-1)) vh (b 1 0) z0 z0 (b (-1) 0) z0 z0 (b 4 0) z0 z0
    (b 1 0) (b 2 0) (b 1 (-1)) (b 1 (-1)) (b 1 (-1)) (b 3 (-1)) (b 1 0) (b 64 0) 2 10 5 [b 1 0; b 1 0; b 1 0]
    (b 1 (-1)) (b 1 0) (b 1 0) 3 3 1 [((b 1000 0, b 1000 0), (b 1 0, b 1 0))].
Definition room : msg b64 := mkMsg 2 2 (b 1 0) z0 z0 [0; 0; 0; 0].
Definition far_test (p : params b64) (g : grid b64) : bool :=
  match @axis_length b64 ND (@n0 b64 ND) (fst (@extents b64 ND g)) (pa_target_resolution p), @axis_length b64 ND (@n0 b64 ND) (snd (@extents b64 ND g)) (pa_target_resolution p) with
  | Ok nx, Ok ny => (0 <=? nx) && (nx <? two32 - 1) && (0 <=? ny) && (ny <? two32 - 1) && forallb (fun ms => forallb (fun i => forallb (fun j =>
      Bltb (exponent dark_libm ms (@node_at b64 ND (pa_target_resolution p) i j) (g_xmin g, g_ymin g)) (b64_ofZ (-746))) (seq 0 (S (Z.to_nat ny)))) (seq 0 (S (Z.to_nat nx)))) (pa_gaussians p)
  | _, _ => false
  end.
Lemma far_test_spec p g : far_test p g = true -> far_away dark_libm p g.
Proof.
  unfold far_test. destruct (axis_length _ (fst _) _) as [nx| | |] eqn:Ax; try discriminate. destruct (axis_length _ (snd _) _) as [ny| | |] eqn:Ay; try discriminate. intros H.
  repeat (apply andb_true_iff in H; destruct H as [H ?]). exists nx, ny. split; [exact Ax|]. split; [exact Ay|]. split; [lia|]. split; [lia|]. intros ms i j M I J.
  rewrite forallb_forall in H0. specialize (H0 ms M). rewrite forallb_forall in H0. specialize (H0 i ltac:(apply in_seq; lia)). rewrite forallb_forall in H0. exact (H0 j ltac:(apply in_seq; lia)).
Qed.
Lemma room_far vh : far_away dark_libm (remote vh) (@grid_of_msg b64 ND room).
Proof. apply far_test_spec. vm_compute. reflexivity. Qed.
Definition shared1 : shared b64 := @deliver b64 ND (MMap room) (@shared_init b64 ND).
Definition moments1 : moments b64 := mkMoments shared1 shared1 shared1 shared1 shared1.
Definition here : option (transform b64) := Some (mkTf (b 1 0) (b 1 0) (Q4 z0 z0 z0 (b 1 0))).
Definition once (om : bool) (p : params b64) (test : res (loop b64 * list (output b64)) -> bool) : bool :=
  match (if om then @omni_node b64 ND p else @cart_node b64 ND p) with
  | Ok (Some (n, l)) => test (@body b64 ND n l (view here [] moments1))
  | _ => false
  end.
Lemma once_inv om p test : once om p test = true -> exists n l, (if om then @omni_node b64 ND p else @cart_node b64 ND p) = Ok (Some (n, l)) /\ test (@body b64 ND n l (view here [] moments1)) = true.
Proof. unfold once. destruct (if om then _ else _) as [[[n l]|]| | |]; try discriminate. intros H. exists n, l. split; [reflexivity|exact H]. Qed.
Lemma cart_script : once false (remote (b 1 0)) (fun r => match r with Throw EInvalidArgument => true | _ => false end) = true.
Proof. vm_compute. reflexivity. Qed.
Lemma omni_script : once true (remote (b 1 0)) (fun r => match r with UB UFloatCast => true | _ => false end) = true.
Proof. vm_compute. reflexivity. Qed.
Definition nanb (u : vec3 b64) : bool := is_nan (v0 u) && is_nan (v1 u) && is_nan (v2 u).
Lemma omni_script0 : once true (remote z0) (fun r => match r with Ok (_, out) => match commands out with [u] => nanb u | _ => false end | _ => false end) = true.
Proof. vm_compute. reflexivity. Qed.
Lemma nanb_spec u : nanb u = true -> nan3 u.
Proof.
  unfold nanb, nan3. destruct u as [a c d]. cbn [v0 v1 v2]. intros H. apply andb_true_iff in H. destruct H as [H C]. apply andb_true_iff in H. destruct H as [A B].
  destruct a, c, d; try discriminate. reflexivity.
Qed.
Lemma shared1_cb : @callbacks b64 ND [MMap room] (@shared_init b64 ND) shared1.
Proof. apply deliver_callbacks. reflexivity. Qed.
Lemma fails1 n l f : @body b64 ND n l (view here [] moments1) = f -> is_ok f = false -> @fails b64 ND n (@shared_init b64 ND) l [MMap room] f.
Proof.
  intros B F. exists here, [], moments1, [MMap room], [], [], []. exact (conj shared1_cb (conj (cb_none _) (conj (cb_none _) (conj (cb_none _) (conj eq_refl (conj B F)))))) .
Qed.
Lemma throw_inv {A} (r : res A) : match r with Throw EInvalidArgument => true | _ => false end = true -> r = Throw EInvalidArgument.
Proof. destruct r as [|[]| |]; discriminate || reflexivity. Qed.
Lemma cast_inv {A} (r : res A) : match r with UB UFloatCast => true | _ => false end = true -> r = UB UFloatCast.
Proof. destruct r as [| |[]|]; discriminate || reflexivity. Qed.
Lemma nan_inv (r : res (loop b64 * list (output b64))) : match r with Ok (_, out) => match commands out with [u] => nanb u | _ => false end | _ => false end = true ->
  exists l' out u, r = Ok (l', out) /\ In (Cmd u) out /\ nan3 u.
Proof.
  destruct r as [[l' out]| | |]; try discriminate. destruct (commands out) as [|u [|]] eqn:O; try discriminate. intros T. exists l', out, u. split; [reflexivity|]. split; [|apply nanb_spec, T].
  assert (I : In u (commands out)) by (rewrite O; left; reflexivity). unfold commands in I. apply in_flat_map in I. destruct I as ([v| |] & I1 & I2); [destruct I2 as [->|[]]; exact I1|destruct I2..].
Qed.
Lemma cart_dark : exists (L : libm) p n l m, (1 <= pa_num_basis p) /\ @cart_node b64 (F64 L) p = Ok (Some (n, l)) /\ underflows L /\ far_away L p (@grid_of_msg b64 (F64 L) m) /\
  @fails b64 (F64 L) n (@shared_init b64 (F64 L)) l [MMap m] (Throw EInvalidArgument).
Proof.
  destruct (once_inv _ _ _ cart_script) as (n & l & C & T). exists dark_libm, (remote (b 1 0)), n, l, room. split; [discriminate|]. split; [exact C|]. split; [exact dark_underflows|]. split; [apply room_far|].
  exact (fails1 n l _ (throw_inv _ T) eq_refl).
Qed.
Lemma omni_dark : exists (L : libm) p n l m, (1 <= pa_num_basis p) /\ @omni_node b64 (F64 L) p = Ok (Some (n, l)) /\ underflows L /\ far_away L p (@grid_of_msg b64 (F64 L) m) /\
  @fails b64 (F64 L) n (@shared_init b64 (F64 L)) l [MMap m] (UB UFloatCast).
Proof.
  destruct (once_inv _ _ _ omni_script) as (n & l & C & T). exists dark_libm, (remote (b 1 0)), n, l, room. split; [discriminate|]. split; [exact C|]. split; [exact dark_underflows|]. split; [apply room_far|].
  exact (fails1 n l _ (cast_inv _ T) eq_refl).
Qed.
Lemma nan_commanded : exists (L : libm) p n l evs s l' e u, (1 <= pa_num_basis p) /\ @omni_node b64 (F64 L) p = Ok (Some (n, l)) /\ @exec b64 (F64 L) n (@shared_init b64 (F64 L)) l evs s l' /\
  underflows L /\ far_away L p (ev_map e) /\ nth_error evs 0 = Some e /\ In (Cmd u) (ev_out e) /\ nan3 u.
Proof.
  destruct (once_inv _ _ _ omni_script0) as (n & l & C & T). destruct (nan_inv _ T) as (l' & out & u & B & I & N). clear T.
  exists dark_libm, (remote z0), n, l, [mkEvent l l' here [] moments1 [MMap room] [] out], shared1, l', (mkEvent l l' here [] moments1 [MMap room] [] out), u.
  split; [discriminate|]. split; [exact C|]. split.
  { pose proof (@iteration_intro b64 ND n (@shared_init b64 ND) here [] moments1 [MMap room] [] [] [] [] [] l l' shared1 out shared1_cb (cb_none _) (cb_none _) (cb_none _) (cb_none _) (cb_none _) B) as It.
    econstructor; [exact It|reflexivity|constructor]. }
  split; [exact dark_underflows|]. split; [exact (room_far z0)|]. split; [reflexivity|]. split; [exact I|exact N].
Qed.
