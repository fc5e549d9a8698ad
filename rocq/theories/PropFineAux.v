(** A concrete run for PropFine: the map changes between the two checks of a validation. *)
From Coq Require Import ZArith List Bool.
From Flocq Require Import IEEE754.BinarySingleNaN.
From Verif Require Import Outcome Num Float64 FloatLemmas GridModel CollisionModel NumericsModel BufferModel DwaModel ErgodicModel ExplorationModel FineModel
  SpecDwa SpecExploration SpecShared SpecFine DwaProofs ExplorationProofs FineProofs PropMappingAux PropDwaAux PropExplorationAux.
Import ListNotations.
Local Open Scope Z_scope.

Lemma c89_64 (L : libm) (n : node b64) s l evs s' l' e u : @fine_exec b64 (F64 L) n s l evs s' l' -> In e evs -> In (Cmd u) (fe_out e) ->
  (exists k, @val_steps b64 (F64 L) n k /\ @clear_in_turn b64 (F64 L) (nd_collision n) (firstn k (fe_checks e)) (@rollout b64 (F64 L) k (nd_val_dt n) u (fine_pose e))) \/
  ((exists k w, @val_steps b64 (F64 L) n k /\ @crash_in_turn b64 (F64 L) (nd_collision n) (fe_checks e) (@rollout b64 (F64 L) k (nd_val_dt n) w (fine_pose e))) /\
   ((@sampled b64 (F64 L) (nd_dwa n) (sh_vb (fe_vb e)) u /\ exists k0, let k := Z.to_nat (dw_steps (nd_dwa n)) in
       @clear_in_turn b64 (F64 L) (dw_collision (nd_dwa n)) (firstn k (skipn k0 (fe_checks e))) (@rollout b64 (F64 L) k (dw_dt (nd_dwa n)) u (fine_pose e))) \/
    u = V3 (b64_ofZ 0) (b64_ofZ 0) (b64_ofZ 0))).
Proof. exact (@c89_turns b64 (F64 L) Bltb_trans Bltb_irrefl (max_max64 L) (max_gap64 L) n s l evs s' l' e u). Qed.

(** The first map before the iteration, the second one between the two checks *)
Definition swap_run (p : params b64) (a c : message b64) (test : node b64 -> loop b64 -> list (output b64) -> bool) : bool :=
  match @cart_node b64 NN p with
  | Ok (Some (n, l)) =>
      let s := @deliver b64 NN a (@shared_init b64 NN) in
      let s' := @deliver b64 NN c s in
      match @body_at b64 NN (maps s' [s; s']) n l (mkSeen home (sh_recv s) (sh_grid s) [] (sh_grid s) (sh_grid s) (sh_vb s')) with
      | Ok (l', out, k) => (k =? 2)%nat && test n l' out
      | _ => false
      end
  | _ => false
  end.
Lemma swap_inv p a c test : swap_run p a c test = true -> exists n l l' out, @cart_node b64 NN p = Ok (Some (n, l)) /\ test n l' out = true /\
  let s := @deliver b64 NN a (@shared_init b64 NN) in let s' := @deliver b64 NN c s in
  @fine_exec b64 NN n (@shared_init b64 NN) l [mkFine l l' home [] s s [s; s'] s' [a; c] out] s' l'.
Proof.
  unfold swap_run. destruct (@cart_node b64 NN p) as [[[n l]|]| | |]; try discriminate. cbv zeta. set (s := deliver a _). set (s' := deliver c s).
  destruct (body_at _ _ _ _) as [[[l' out] k]| | |] eqn:B; try discriminate. intros H. apply andb_true_iff in H. destruct H as [K H]. apply Nat.eqb_eq in K. subst k.
  exists n, l, l', out. split; [reflexivity|]. split; [exact H|].
  assert (C0 : @callbacks b64 NN [a] (@shared_init b64 NN) s) by (apply deliver_callbacks; reflexivity).
  assert (C1 : @callbacks b64 NN [c] s s') by (apply deliver_callbacks, deliver_todo).
  assert (St : @steps b64 NN [c] s ([s] ++ s' :: [s']) s').
  { exact (steps_cons [] [c] s s [s'; s'] s' (cb_none s) (steps_cons [c] [] s s' [s'] s' C1 (steps_cons [] [] s' s' [] s' (cb_none s') (steps_nil s')))). }
  pose proof (@fine_intro b64 NN n _ home [] s s [s] s' [s'] s' [a] [] [c] [] l l' s' out C0 (cb_none s) St (cb_none s') B) as It.
  econstructor; [exact It|reflexivity|constructor].
Qed.
Definition swap_test (n : node b64) (l' : loop b64) (out : list (output b64)) : bool :=
  match commands out with
  | [u] => Bltb (v0 u) z0 && forallb (fun k => match valid_on n (@grid_of_msg b64 NN (map_msg k)) (lp_pose l') u with Some v => negb v | None => false end) [53%nat; 56%nat]
  | _ => false
  end.
Lemma swap_script : swap_run usual (MM 53) (MM 56) swap_test = true.
Proof. vm_compute. reflexivity. Qed.
Lemma cmds_in (out : list (output b64)) u : commands out = [u] -> In (Cmd u) out.
Proof.
  intros H. assert (I : In u (commands out)) by (rewrite H; left; reflexivity). unfold commands in I. apply in_flat_map in I.
  destruct I as ([v| |] & A & B); [destruct B as [->|[]]; exact A|destruct B..].
Qed.
Lemma swap_test_inv n l' out : swap_test n l' out = true -> exists u, commands out = [u] /\ Bltb (v0 u) (B754_zero false) = true /\
  @hits b64 NN n (@grid_of_msg b64 NN (map_msg 53)) (lp_pose l') u /\ @hits b64 NN n (@grid_of_msg b64 NN (map_msg 56)) (lp_pose l') u.
Proof.
  unfold swap_test. destruct (commands out) as [|u [|]]; try discriminate. intros T. apply andb_true_iff in T. destruct T as [T1 T2]. exists u. split; [reflexivity|]. split; [exact T1|].
  cbn [forallb] in T2. apply andb_true_iff in T2. destruct T2 as [A B]. apply andb_true_iff in B. destruct B as [B _]. split.
  - destruct (valid_on _ _ _ _) as [[|]|] eqn:V in A; try discriminate. exact (valid_on_spec _ _ _ _ _ V).
  - destruct (valid_on _ _ _ _) as [[|]|] eqn:V in B; try discriminate. exact (valid_on_spec _ _ _ _ _ V).
Qed.
Lemma swap_exec : exists (L : libm) p n l evs s l' e u, @cart_node b64 (F64 L) p = Ok (Some (n, l)) /\ @fine_exec b64 (F64 L) n (@shared_init b64 (F64 L)) l evs s l' /\
  In e evs /\ In (Cmd u) (fe_out e) /\ Bltb (v0 u) (B754_zero false) = true /\ length (fine_messages evs) = 2%nat /\
  forall m, In m (fine_messages evs) -> exists g, m = MMap g /\ @hits b64 (F64 L) n (@grid_of_msg b64 (F64 L) g) (fine_pose e) u.
Proof.
  destruct (swap_inv _ _ _ _ swap_script) as (n & l & l' & out & C & T & X). cbv zeta in X. destruct (swap_test_inv _ _ _ T) as (u & O & T1 & A & B).
  eexists node_libm, usual, n, l, _, _, l', _, u. split; [exact C|]. split; [exact X|]. split; [left; reflexivity|]. cbn [fe_out]. split; [apply cmds_in, O|].
  split; [exact T1|]. unfold fine_messages, fine_pose. cbn [flat_map fe_msgs fe_post app]. split; [reflexivity|].
  intros m [<-|[<-|[]]]; eexists; (split; [reflexivity|assumption]).
Qed.
