(** Concrete runs of the cart node in binary64, for PropExploration. *)
From Coq Require Import Reals ZArith List Bool.
From Flocq Require Import IEEE754.BinarySingleNaN.
From Verif Require Import Outcome Num Float64 GridModel CollisionModel NumericsModel BufferModel BasisModel RobotModel DwaModel ErgodicModel
  ExplorationModel SpecDwa SpecExploration ExplorationProofs PropMappingAux PropDwaAux.
Import ListNotations.
Local Open Scope Z_scope.

Section Play.
Context {T : Type} {NT : Num T}.
(** The callback of a message, from start to end *)
Fixpoint finish (l : list (write T)) (s : shared T) : shared T :=
  match l with [] => s | w :: l => finish l (do_write w l s) end.
Lemma finish_callbacks l : forall s, sh_todo s = l -> callbacks [] s (finish l s).
Proof.
  induction l as [|w l IH]; intros s E; cbn [finish]; [constructor|]. eapply cb_write; [exact E|]. apply IH. reflexivity.
Qed.
Definition deliver (m : message T) (s : shared T) : shared T := finish (writes_of m) (mkShared (sh_grid s) (sh_recv s) (sh_vb s) (writes_of m)).
Lemma finish_todo l : forall s, sh_todo s = l -> sh_todo (finish l s) = [].
Proof. induction l as [|w l IH]; intros s E; cbn [finish]; [exact E|]. apply IH. reflexivity. Qed.
Lemma deliver_todo m s : sh_todo (deliver m s) = [].
Proof. apply finish_todo. reflexivity. Qed.
Lemma callbacks_app a s1 s2 : callbacks a s1 s2 -> forall b (s3 : shared T), callbacks b s2 s3 -> callbacks (a ++ b) s1 s3.
Proof. induction 1; intros b s3 K; cbn [app]; [exact K|eapply cb_start; eauto|eapply cb_write; eauto]. Qed.
Lemma deliver_callbacks m s : sh_todo s = [] -> callbacks [m] s (deliver m s).
Proof. intros E. eapply cb_start; [exact E|]. apply finish_callbacks. reflexivity. Qed.
Definition deliver_all (ms : list (message T)) (s : shared T) : shared T := fold_left (fun s m => deliver m s) ms s.
Lemma deliver_all_callbacks ms : forall s, sh_todo s = [] -> callbacks ms s (deliver_all ms s) /\ sh_todo (deliver_all ms s) = [].
Proof.
  induction ms as [|m ms IH]; intros s E; [split; [constructor|exact E]|]. destruct (IH (deliver m s) (deliver_todo m s)) as [A B].
  split; [|exact B]. exact (callbacks_app [m] _ _ (deliver_callbacks m s E) _ _ A).
Qed.

(** Iterations with the given messages before map_received_ is read and just before publication, and lookups *)
Fixpoint play (n : node T) (s : shared T) (l : loop T) (script : list (list (message T) * list (message T) * option (transform T)))
  : res (list (event T) * shared T * loop T) :=
  match script with
  | [] => Ok ([], s, l)
  | (early, late, lk) :: script =>
      let s1 := deliver_all early s in
      let s2 := deliver_all late s1 in
      let t := mkMoments s1 s1 s1 s1 s2 in
      let* ' (l', out) := body n l (view lk [] t) in
      let* ' (evs, s', lf) := play n s2 l' script in
      Ok (mkEvent l l' lk [] t early late out :: evs, s', lf)
  end.
Lemma play_exec n script : forall s l evs s' l', sh_todo s = [] -> play n s l script = Ok (evs, s', l') -> exec n s l evs s' l' /\ sh_todo s' = [].
Proof.
  induction script as [|[[early late] lk] script IH]; intros s l evs s' l' E H; cbn [play] in H.
  - injection H as <- <- <-. split; [constructor|exact E].
  - cbv zeta in H. destruct (body _ _ _) as [[l1 out]| | |] eqn:B; cbn [bind] in H; try discriminate.
    destruct (play _ _ _ script) as [[[evs1 s1] lf]| | |] eqn:P; cbn [bind] in H; try discriminate. injection H as <- <- <-.
    destruct (deliver_all_callbacks early s E) as [A1 A2]. destruct (deliver_all_callbacks late _ A2) as [B1 B2].
    destruct (IH _ _ _ _ _ B2 P) as [X Y]. split; [|exact Y]. eapply exec_cons; [|reflexivity|exact X].
    pose proof (iteration_intro n s lk [] (mkMoments (deliver_all early s) (deliver_all early s) (deliver_all early s) (deliver_all early s)
      (deliver_all late (deliver_all early s))) early [] [] [] late [] l l1 (deliver_all late (deliver_all early s)) out A1
      (cb_none _) (cb_none _) (cb_none _) B1 (cb_none _) B) as I. cbn [app] in I. rewrite app_nil_r in I. exact I.
Qed.
End Play.

(** Crude but deterministic elementary functions: the robot moves along x with heading 0, where they are exact. *)
Definition node_libm : libm := {| m_sin := fun x => x; m_cos := fun x => if Bltb x (b 1 (-1)) then b 1 0 else b 0 0;
  m_exp := fun x => if Bltb x (b (-1) 0) then b 0 0 else b 1 0;
  m_log := m_log toy_libm; m_atan2 := fun _ _ => b 0 0; m_pow := m_pow toy_libm |}.
Definition NN : Num b64 := F64 node_libm.
(** Speeds within [-1, 1], no rotation; validation steps 1/2 up to [vh], controller steps [edt] up to [eh], window steps [ddt] up to [dh]; a target at
    (1, 5); the robot of PropDwaAux. *)
Definition params1 (vh edt eh ddt dh : b64) : params b64 :=
  mkParams (b 1 (-1)) vh (b 1 0) z0 z0 (b (-1) 0) z0 z0 (b 4 0) z0 z0
    (b 1 0) (b 2 0) (b 1 (-1)) (b 1 (-1)) edt eh (b 1 0) (b 64 0) 2 10 5 [b 1 0; b 1 0]
    ddt dh (b 1 0) 3 0 1 [((b 1 0, b 5 0), (b 1 0, b 1 0))].
Definition usual : params b64 := params1 (b 1 0) (b 1 (-1)) (b 3 (-1)) (b 1 (-1)) (b 1 0).
Definition tf_at (x : b64) : option (transform b64) := Some (mkTf x (b 11 (-1)) (Q4 z0 z0 z0 (b 1 0))).
(** The room of PropDwaAux as a message *)
Definition map_msg (k : nat) : msg b64 := mkMsg 10 10 (b 1 0) z0 z0 (firstn 100 (repeat 0 k ++ 100 :: repeat 0 100)).
Definition MM (k : nat) : message b64 := MMap (map_msg k).
(** Play a script from the start and test the result *)
Definition scene (p : params b64) script (test : node b64 -> list (event b64) -> shared b64 -> loop b64 -> bool) : bool :=
  match @cart_node b64 NN p with
  | Ok (Some (n, l)) => match @play b64 NN n (@shared_init b64 NN) l script with Ok (evs, s, l') => test n evs s l' | _ => false end
  | _ => false
  end.
Lemma scene_exec p script test : scene p script test = true -> exists n l evs s l', @cart_node b64 NN p = Ok (Some (n, l)) /\
  @exec b64 NN n (@shared_init b64 NN) l evs s l' /\ sh_todo s = [] /\ test n evs s l' = true.
Proof.
  unfold scene. destruct (@cart_node b64 NN p) as [[[n l]|]| | |]; try discriminate. destruct (play _ _ _ _) as [[[evs s] l']| | |] eqn:P; try discriminate.
  intros H. apply play_exec in P; [|reflexivity]. destruct P as [X Y]. exists n, l, evs, s, l'. auto.
Qed.
Lemma cart_loop p n l : @cart_node b64 NN p = Ok (Some (n, l)) -> exists ec0 t, l = @loop_init b64 NN ec0 t.
Proof.
  unfold cart_node, start. destruct (weight_at _ 0); cbn [bind]; try discriminate. destruct (weight_at _ 1); cbn [bind]; try discriminate.
  destruct (gaussians_of _) as [t| | |]; cbn [bind]; try discriminate. destruct (collision_ctor _ _ _ _); cbn [bind]; try discriminate.
  destruct (ec_ctor _ _ _ _ _ _ _ _ _ _ _) as [ec0| | |]; cbn [bind]; try discriminate. destruct (dwa_ctor _ _ _ _ _ _ _ _ _ _ _ _ _ _ _ _); cbn [bind]; try discriminate.
  destruct (nlt _ _); intros H; [discriminate|]. exists ec0, t. congruence.
Qed.
(** Validation as a test *)
Definition valid_on (n : node b64) (g : grid b64) (x u : vec3 b64) : option bool :=
  match @validate_control b64 NN (nd_collision n) g x u (nd_val_dt n) (nd_val_horizon n) with Ok v => Some v | _ => None end.
Lemma valid_on_spec n g x u v : valid_on n g x u = Some v -> if v then @passes b64 NN n g x u else @hits b64 NN n g x u.
Proof. unfold valid_on. destruct (validate_control _ _ _ _ _ _) eqn:E; try discriminate. intros H. injection H as <-. exact (validate_cases _ _ _ _ _ E). Qed.
Definition cmds (e : event b64) : nat := length (commands (ev_out e)).
Definition outs (evs : list (event b64)) : list nat := map (fun e => length (ev_out e)) evs.
Definition home : option (transform b64) := tf_at (b 11 (-1)).
Definition eqb_vec (a c : vec3 b64) : bool := Beqb (v0 a) (v0 c) && Beqb (v1 a) (v1 c) && Beqb (v2 a) (v2 c).
Definition test1 (f : event b64 -> bool) (evs : list (event b64)) : bool := match evs with [e] => f e | _ => false end.

(** C63: the map arrives after the first iteration; then every iteration publishes *)
Lemma wait_run : scene usual [([], [], home); ([MM 200], [], None); ([], [], None)] (fun n evs s l => match map cmds evs with [O; S O; S O] => true | _ => false end) = true.
Proof. vm_compute. reflexivity. Qed.
(** C64, C67: validated on the free room, published when there is an obstacle *)
Lemma late_run : scene usual [([MM 200], [MM 53], home)] (fun n evs s l => test1 (fun e => match commands (ev_out e) with
  [u] => match valid_on n (check_map e) (ev_pose e) u, valid_on n (map_at_publication e) (ev_pose e) u with Some true, Some false => true | _, _ => false end
  | _ => false end) evs) = true.
Proof. vm_compute. reflexivity. Qed.
Lemma late_exec : exists (L : libm) p n ec0 t evs s l e u, @cart_node b64 (F64 L) p = Ok (Some (n, @loop_init b64 (F64 L) ec0 t)) /\
  @exec b64 (F64 L) n (@shared_init b64 (F64 L)) (@loop_init b64 (F64 L) ec0 t) evs s l /\ In e evs /\ In (Cmd u) (ev_out e) /\
  @passes b64 (F64 L) n (check_map e) (ev_pose e) u /\ @hits b64 (F64 L) n (map_at_publication e) (ev_pose e) u.
Proof.
  destruct (scene_exec _ _ _ late_run) as (n & l & evs & s & l' & C & X & _ & R). destruct evs as [|e [|]]; try discriminate. cbn [test1] in R.
  destruct (commands (ev_out e)) as [|u [|]] eqn:O; try discriminate. destruct (valid_on n (check_map e) _ _) as [[|]|] eqn:V1; try discriminate.
  destruct (valid_on n (map_at_publication e) _ _) as [[|]|] eqn:V2; try discriminate. apply valid_on_spec in V1, V2.
  destruct (cart_loop _ _ _ C) as (ec0 & t & ->). exists node_libm, usual, n, ec0, t, [e], s, l', e, u. split; [exact C|]. split; [exact X|]. split; [left; reflexivity|].
  split; [|split; [exact V1|exact V2]]. assert (I : In u (commands (ev_out e))) by (rewrite O; left; reflexivity). unfold commands in I.
  apply in_flat_map in I. destruct I as ([v| |] & I1 & I2); [destruct I2 as [->|[]]; exact I1|destruct I2..].
Qed.
(** C65: the window takes over, its twist is repeated once (two steps), then the controller plans *)
Lemma follow_script : scene usual [([MM 53], [], home); ([], [], None); ([], [], None)] (fun n evs s l => match evs with
  | [e1; e2; e3] => match ev_out e1, ev_out e2, ev_out e3 with
      | [Traj _; DwaTraj _; Cmd u], [Cmd v], Traj _ :: _ => eqb_vec u v && (dw_steps (nd_dwa n) =? 2) | _, _, _ => false end
  | _ => false end) = true.
Proof. vm_compute. reflexivity. Qed.
(** C66: no sample is free because the robot is surrounded: a stop, and the controller plans again *)
Definition ring : msg b64 := mkMsg 10 10 (b 1 0) z0 z0 (repeat 100 100).
Lemma stuck_script : scene usual [([MMap ring], [], home); ([], [], None)] (fun n evs s l => match evs with
  | [e1; e2] => match ev_out e1, ev_out e2 with
      | [Traj _; Cmd u], Traj _ :: _ => eqb_vec u (V3 z0 z0 z0) | _, _ => false end
  | _ => false end) = true.
Proof. vm_compute. reflexivity. Qed.
(** C68: lookups fail after the first; the memory has one state *)
Lemma stale_script : scene usual [([MM 200], [], home); ([], [], None); ([], [], None)] (fun n evs s l => match map ev_lookup evs with [Some _; None; None] =>
  (match map cmds evs with [S O; S O; S O] => true | _ => false end) && (lenZ (b_mem (ec_buffer (lp_ec l))) =? 1) && Beqb (v0 (lp_pose l)) (b 11 (-1)) | _ => false end) = true.
Proof. vm_compute. reflexivity. Qed.
(** C67: the map grows; between the writes of its sizes and of its data the check reads beyond the data *)
Definition big_msg : msg b64 := mkMsg 20 20 (b 1 0) z0 z0 (repeat 0 400).
Definition before : shared b64 := @deliver b64 NN (MM 200) (@shared_init b64 NN).
Definition torn : shared b64 :=
  @do_write b64 NN (WYsize 20) (skipn 2 (map_writes big_msg)) (@do_write b64 NN (WXsize 20) (skipn 1 (map_writes big_msg))
    (mkShared (sh_grid before) (sh_recv before) (sh_vb before) (map_writes big_msg))).
Definition torn_view : moments b64 := mkMoments before before torn torn torn.
Lemma torn_run : match @cart_node b64 NN usual with
  | Ok (Some (n, l)) => match @body b64 NN n l (view home [] torn_view) with Throw EOutOfRange => true | _ => false end
  | _ => false end = true.
Proof. vm_compute. reflexivity. Qed.
Lemma torn_fails : exists (L : libm) p n l m1 m2, @cart_node b64 (F64 L) p = Ok (Some (n, l)) /\
  m_width m1 * m_height m1 = lenZ (m_data m1) /\ m_width m2 * m_height m2 = lenZ (m_data m2) /\
  @fails b64 (F64 L) n (@shared_init b64 (F64 L)) l [MMap m1; MMap m2] (Throw EOutOfRange).
Proof.
  pose proof torn_run as R. destruct (@cart_node b64 NN usual) as [[[n l]|]| | |] eqn:C; try discriminate.
  destruct (body n l (view home [] torn_view)) as [|[]| |] eqn:B; try discriminate.
  exists node_libm, usual, n, l, (map_msg 200), big_msg. split; [exact C|]. split; [reflexivity|]. split; [reflexivity|].
  exists home, [], torn_view, [MM 200], [], [MMap big_msg], []. split; [apply deliver_callbacks; reflexivity|]. split; [constructor|].
  split. { eapply cb_start; [apply deliver_todo|]. eapply cb_write; [reflexivity|]. eapply cb_write; [reflexivity|]. constructor. }
  split; [constructor|]. split; [reflexivity|]. split; [exact B|reflexivity].
Qed.

Lemma cmd_in (e : event b64) u : commands (ev_out e) = [u] -> In (Cmd u) (ev_out e).
Proof.
  intros O. assert (I : In u (commands (ev_out e))) by (rewrite O; left; reflexivity). unfold commands in I.
  apply in_flat_map in I. destruct I as ([v| |] & I1 & I2); [destruct I2 as [->|[]]; exact I1|destruct I2..].
Qed.
Definition sfone (x : b64) : bool := match B2SF x with SpecFloat.S754_finite s m e => s && Pos.eqb m 4503599627370496 && Z.eqb e (-52) | _ => false end.
Lemma sfone_spec x : sfone x = true -> B2SF x = SpecFloat.S754_finite true 4503599627370496 (-52).
Proof.
  unfold sfone. destruct (B2SF x) as [| | |s m e]; try discriminate. intros H. apply andb_true_iff in H. destruct H as [H H3]. apply andb_true_iff in H. destruct H as [H1 H2].
  apply Pos.eqb_eq in H2. apply Z.eqb_eq in H3. destruct s; [|discriminate]. subst. reflexivity.
Qed.
Lemma move_run : scene usual [([MM 200], [], home)] (fun n evs s l => test1 (fun e => match commands (ev_out e) with
  [u] => match valid_on n (check_map e) (ev_pose e) u, sfone (v0 u) with Some true, true => true | _, _ => false end
  | _ => false end) evs) = true.
Proof. vm_compute. reflexivity. Qed.
Lemma moving_exec : exists n l evs s l' e u, @exec b64 NN n (@shared_init b64 NN) l evs s l' /\ In e evs /\ In (Cmd u) (ev_out e) /\
  @passes b64 NN n (check_map e) (ev_pose e) u /\ B2SF (v0 u) = B2SF (b64_ofZ (-1)).
Proof.
  destruct (scene_exec _ _ _ move_run) as (n & l & evs & s & l' & C & X & _ & R). destruct evs as [|e [|]]; try discriminate. cbn [test1] in R.
  destruct (commands (ev_out e)) as [|u [|]] eqn:O; try discriminate. destruct (valid_on n (check_map e) _ _) as [[|]|] eqn:V1; try discriminate.
  apply valid_on_spec in V1. exists n, l, [e], s, l', e, u. split; [exact X|]. split; [left; reflexivity|]. split; [apply cmd_in, O|]. split; [exact V1|].
  destruct (sfone (v0 u)) eqn:F; [|discriminate]. apply sfone_spec in F. rewrite F. reflexivity.
Qed.
Lemma follow_exec : exists n l e1 e2 e3 s l', @exec b64 NN n (@shared_init b64 NN) l [e1; e2; e3] s l' /\
  0 <= dw_steps (nd_dwa n) < two32 /\ turns n = 2 /\ took_over e1 /\ ~ planned e2 /\ planned e3.
Proof.
  destruct (scene_exec _ _ _ follow_script) as (n & l & evs & s & l' & C & X & _ & R). destruct evs as [|e1 [|e2 [|e3 [|]]]]; try discriminate.
  destruct (ev_out e1) as [|[|p1|] [|[| |p2] [|[u| |] [|]]]] eqn:O1; try discriminate.
  destruct (ev_out e2) as [|[v| |] [|]] eqn:O2; try discriminate. destruct (ev_out e3) as [|[|p3|] r3] eqn:O3; try discriminate.
  apply andb_true_iff in R. destruct R as [_ R]. apply Z.eqb_eq in R.
  exists n, l, e1, e2, e3, s, l'. split; [exact X|]. unfold turns, took_over, planned. rewrite R, O1, O2, O3. split; [cbv; split; congruence|]. split; [reflexivity|].
  split; [exists p2; right; left; reflexivity|]. split; [intros [p [I|[]]]; discriminate|]. exists p3. left. reflexivity.
Qed.
Lemma stuck_exec : exists n l e1 e2 s l' u, @exec b64 NN n (@shared_init b64 NN) l [e1; e2] s l' /\
  In (Cmd u) (ev_out e1) /\ eqb_vec u (V3 z0 z0 z0) = true /\ ~ took_over e1 /\ planned e1 /\ planned e2.
Proof.
  destruct (scene_exec _ _ _ stuck_script) as (n & l & evs & s & l' & C & X & _ & R). destruct evs as [|e1 [|e2 [|]]]; try discriminate.
  destruct (ev_out e1) as [|[|p1|] [|[u| |] [|]]] eqn:O1; try discriminate. destruct (ev_out e2) as [|[|p3|] r3] eqn:O3; try discriminate.
  exists n, l, e1, e2, s, l', u. split; [exact X|]. unfold took_over, planned. rewrite O1, O3. split; [right; left; reflexivity|]. split; [exact R|].
  split; [intros [p [I|[I|[]]]]; discriminate|]. split; [exists p1; left; reflexivity|]. exists p3. left. reflexivity.
Qed.
Lemma stale_exec : exists n l evs s l' t, @exec b64 NN n (@shared_init b64 NN) l evs s l' /\
  map cmds evs = [1; 1; 1]%nat /\ map ev_lookup evs = [Some t; None; None] /\ lenZ (b_mem (ec_buffer (lp_ec l'))) = 1.
Proof.
  destruct (scene_exec _ _ _ stale_script) as (n & l & evs & s & l' & C & X & _ & R). destruct (map ev_lookup evs) as [|[t|] [|[|] [|[|] [|]]]] eqn:E; try discriminate.
  exists n, l, evs, s, l', t. apply andb_true_iff in R. destruct R as [R1 R3]. apply andb_true_iff in R1. destruct R1 as [R1 R2].
  apply Z.eqb_eq in R2. split; [exact X|]. split; [|split; [exact E|exact R2]].
  destruct (map cmds evs) as [|[|[|]] [|[|[|]] [|[|[|]] [|]]]]; try discriminate; reflexivity.
Qed.

(** C66: an obstacle appears while following *)
Lemma fail_follow : scene usual [([MM 53], [], home); ([MMap ring], [], None); ([], [], None)] (fun n evs s l => match evs with
  | [e1; e2; e3] => match ev_out e1, ev_out e2, ev_out e3, valid_on n (check_map e2) (ev_pose e2) (lp_u (ev_pre e2)) with
      | [Traj _; DwaTraj _; Cmd _], [Cmd _], Traj _ :: _, Some false => true | _, _, _, _ => false end
  | _ => false end) = true.
Proof. vm_compute. reflexivity. Qed.
Lemma fail_follow_exec : exists n l e1 e2 e3 s l', @exec b64 NN n (@shared_init b64 NN) l [e1; e2; e3] s l' /\ took_over e1 /\
  ~ took_over e2 /\ ~ planned e2 /\ @hits b64 NN n (check_map e2) (ev_pose e2) (lp_u (ev_pre e2)) /\ planned e3.
Proof.
  destruct (scene_exec _ _ _ fail_follow) as (n & l & evs & s & l' & C & X & _ & R). destruct evs as [|e1 [|e2 [|e3 [|]]]]; try discriminate.
  destruct (ev_out e1) as [|[|p1|] [|[| |p2] [|[u| |] [|]]]] eqn:O1; try discriminate.
  destruct (ev_out e2) as [|[v| |] [|]] eqn:O2; try discriminate. destruct (ev_out e3) as [|[|p3|] r3] eqn:O3; try discriminate.
  destruct (valid_on _ _ _ _) as [[|]|] eqn:V; try discriminate. apply valid_on_spec in V.
  exists n, l, e1, e2, e3, s, l'. split; [exact X|]. unfold took_over, planned. rewrite O1, O2, O3.
  split; [exists p2; right; left; reflexivity|]. split; [intros [p [I|[]]]; discriminate|]. split; [intros [p [I|[]]]; discriminate|].
  split; [exact V|]. exists p3. left. reflexivity.
Qed.
