(** Examples for PropTurns: the wall appears between two checks; a node during whose checks an obstacle appears. *)
From Coq Require Import Reals Lra ZArith Lia List Bool.
From Flocq Require Import Core.Raux Core.Zaux IEEE754.BinarySingleNaN.
From Verif Require Import Outcome Num Float64 GridModel CollisionModel NumericsModel BufferModel DwaModel ErgodicModel ExplorationModel FineModel
  Spec SpecMotion SpecRobot SpecDwa SpecErgodic SpecExploration SpecSystem SpecNear SpecSafe SpecFine SpecTurns
  MotionProofs NearProofs ExplorationProofs FineProofs PropMappingAux PropDwaAux PropExplorationAux PropSystemAux PropNearAux PropSafeAux PropFineAux TurnsProofs.
Import ListNotations ExplorationModel.
Local Open Scope R_scope.

Definition bare64 : grid b64 := mkGrid 10 10 (b 1 0) z0 z0 (b 10 0) (b 10 0) (repeat 0%Z 100).
Definition appears (k : nat) : grid b64 := match k with O => bare64 | _ => walled64 end.
Lemma creep_turns : let L := rounded (b64_ofZ 1) in accurate L /\ tame x64 creep64 (b 1 0) 2 /\ 0 < B2R (b 1 0) /\
  twist_motion (real3 x64) (B2R (v0 creep64)) (B2R (v1 creep64)) (B2R (v2 creep64)) path64 /\
  @num_steps b64 (F64 L) (b 1 0) (b 2 0) = Ok 2%Z /\ @validate_control_at b64 (F64 L) appears body64 x64 creep64 (b 1 0) (b 2 0) 0 = Ok (true, 2%nat) /\
  usable (appears 1) /\ whole_cells L body64 (appears 1) 2 4 4 /\ wall64 L (appears 1) (c_occ body64) (9, 0)%Z wall_cells /\
  inside (real_grid (appears 1)) (IZR 2 * drift creep64 (b 1 0)) (path64 (IZR 2 * B2R (b 1 0))).
Proof.
  intros L. destruct creep_all as (A & T & D & M & N & _ & U & W & Wa & I). fold L in A, N, W, Wa.
  repeat (split; [first [exact A|exact T|exact D|exact M|exact N|exact U|exact W|exact Wa|vm_compute; reflexivity]|]).
  apply I. rewrite (proj1 nums). lra.
Qed.

Local Open Scope Z_scope.
Definition late_state (k : nat) : shared b64 := @deliver b64 NR (MM k) (@shared_init b64 NR).
Definition late_state' (k m : nat) : shared b64 := @deliver b64 NR (MM m) (late_state k).
Definition late_test (n : node b64) (l' : loop b64) (out : list (output b64)) : bool :=
  match commands out with
  | [u] => true && isb (v0 u) (b (-1) 0) && isb (v1 u) z0 && isb (v2 u) z0 && isb (v0 (lp_pose l')) (b 319 (-5)) && isb (v1 (lp_pose l')) (b 11 (-1)) && isb (v2 (lp_pose l')) z0 &&
      isb (nd_val_dt n) (b 1 (-1)) && isb (dw_dt (nd_dwa n)) (b 1 (-1)) && (dw_steps (nd_dwa n) =? 2) &&
      match @num_steps b64 NR (nd_val_dt n) (nd_val_horizon n) with Ok k => k =? 2 | _ => false end
  | _ => false end.
Lemma late_run : match @cart_node b64 NR edge_params with
  | Ok (Some (n, l)) =>
      let s := late_state 200 in let s' := late_state' 200 0 in
      match @body_at b64 NR (maps s' [s; s']) n l (mkSeen (tf_at (b 319 (-5))) (sh_recv s) (sh_grid s) [] (sh_grid s) (sh_grid s) (sh_vb s')) with
      | Ok (l', out, k) => (k =? 2)%nat && late_test n l' out
      | _ => false end
  | _ => false end = true.
Proof. vm_compute. reflexivity. Qed.
Lemma late_exec : exists n l evs s l' e u, @cart_node b64 NR edge_params = Ok (Some (n, l)) /\ @fine_exec b64 NR n (@shared_init b64 NR) l evs s l' /\ In e evs /\ In (Cmd u) (fe_out e) /\
  (forall k, @val_steps b64 NR n k -> tame (fine_pose e) u (nd_val_dt n) (Z.of_nat k)) /\ tame (fine_pose e) u (dw_dt (nd_dwa n)) (dw_steps (nd_dwa n)) /\
  0 <= dw_steps (nd_dwa n) /\ B2R (v0 u) = (-1)%R /\ (0 < B2R (nd_val_dt n))%R /\ (0 < B2R (dw_dt (nd_dwa n)))%R /\
  @num_steps b64 NR (nd_val_dt n) (nd_val_horizon n) = Ok 2 /\ map (@sh_grid b64) (fe_checks e) = map (fun k => @grid_of_msg b64 NR (map_msg k)) [200; 0]%nat.
Proof.
  pose proof late_run as R. destruct (@cart_node b64 NR edge_params) as [[[n l]|]| | |] eqn:C; try discriminate. cbv zeta in R.
  destruct (body_at _ _ _ _) as [[[l' out] k]| | |] eqn:B in R; try discriminate. apply andb_true_iff in R. destruct R as [K R]. apply Nat.eqb_eq in K. subst k.
  assert (X : @fine_exec b64 NR n (@shared_init b64 NR) l [mkFine l l' (tf_at (b 319 (-5))) [] (late_state 200) (late_state 200) [late_state 200; late_state' 200 0] (late_state' 200 0) [MM 200; MM 0] out] (late_state' 200 0) l').
  { set (s := late_state 200) in *. set (s' := late_state' 200 0) in *.
    assert (C0 : @callbacks b64 NR [MM 200] (@shared_init b64 NR) s) by (apply deliver_callbacks; reflexivity).
    assert (C1 : @callbacks b64 NR [MM 0] s s') by (apply deliver_callbacks, deliver_todo).
    assert (St : @steps b64 NR [MM 0] s ([s] ++ s' :: [s']) s').
    { exact (steps_cons [] [MM 0] s s [s'; s'] s' (cb_none s) (steps_cons [MM 0] [] s s' [s'] s' C1 (steps_cons [] [] s' s' [] s' (cb_none s') (steps_nil s')))). }
    pose proof (@fine_intro b64 NR n _ (tf_at (b 319 (-5))) [] s s [s] s' [s'] s' [MM 200] [] [MM 0] [] l l' s' out C0 (cb_none s) St (cb_none s') B) as It.
    econstructor; [exact It|reflexivity|constructor]. }
  unfold late_test in R. destruct (commands out) as [|u [|]] eqn:O; try discriminate.
  eexists n, l, _, _, l', _, u. split; [reflexivity|]. split; [exact X|]. split; [left; reflexivity|]. cbn [fe_out]. split; [apply cmds_in, O|]. unfold fine_pose. cbn [fe_post fe_checks].
  do 10 (apply Bool.andb_true_iff in R; destruct R as [R ?]).
  repeat match goal with H : isb ?x ?y = true |- _ => apply isb_spec in H; [|reflexivity]; destruct H as [? ?] end.
  destruct consts as (c1 & c2 & c3 & c4 & c5).
  match goal with H : (dw_steps _ =? 2) = true |- _ => apply Z.eqb_eq in H; rewrite H end.
  destruct (num_steps _ _) as [k| | |] eqn:K; try discriminate. match goal with H : (k =? 2) = true |- _ => apply Z.eqb_eq in H; subst k end.
  assert (TT : forall dt, is_finite dt = true -> B2R dt = B2R (b 1 (-1)) -> tame (lp_pose l') u dt 2).
  { intros dt Fd Ed. unfold tame, moderate, stride, finite3.
    repeat match goal with H : B2R ?x = _ |- context[B2R ?x] => rewrite H end. rewrite ?c1, ?c2, ?c3, ?c4, ?c5.
    repeat split; try assumption; try lia; small_abs. }
  split; [intros k V; rewrite (val_steps_det _ _ _ _ K V); apply TT; assumption|]. split; [apply TT; assumption|]. split; [lia|]. split; [congruence|].
  split; [repeat match goal with H : B2R ?x = _ |- context[B2R ?x] => rewrite H end; lra|].
  split; [repeat match goal with H : B2R ?x = _ |- context[B2R ?x] => rewrite H end; lra|]. split; [reflexivity|]. reflexivity.
Qed.
