(** Lemmas for the examples of PropRk and PropShared. *)
From Coq Require Import Reals Lra ZArith Lia List Bool.
From Flocq Require Import Core.Raux.
From Verif Require Import Outcome Num GridModel CollisionModel NumericsModel RobotModel FitModel SpecRobot SpecRk NumericsProofs MotionProofs RobotProofs FitProofs RkProofs.
Import ListNotations.
Local Open Scope R_scope.

Lemma forward_example : exists st, rk45_solve (mkRK45 (1 / 10) (1 / 10) (1 / 100) 100) (rb_f omni) (V3 0 0 0) (repeat (V3 1 0 0) 5) (1 / 10) (1 / 2) = Ok (Some st).
Proof.
  destruct c80_example as (fit & xt & _ & E & _). unfold rk45_trajectory in E.
  destruct (rk45_solve _ _ _ _ _ _) as [[st|]| | |]; cbn [bind] in E; [exists st; reflexivity| | | |]; try discriminate.
  exfalso. destruct (num_steps _ _); discriminate.
Qed.
Definition decay (rho e b : vec3 R) (m : mat3 R) : vec3 R := times rho 0.
Lemma back_example : let l := repeat (V3 0 0 0) 5 in
  rk45_co_solve (mkRK45 (1 / 2) (1 / 2) (1 / 100) 100) decay omni_fdx (V3 1 2 3) l l l l (1 / 10) (1 / 2) = Ok (Some [(0, V3 1 2 3); (1 / 2, V3 1 2 3)]).
Proof.
  intros l. unfold rk45_co_solve. rewrite steps_example. cbn [bind rk_hmin rk_iter].
  change (ndiv (1 / 2) (1 / 2)) with (1 / 2 / (1 / 2)).
  assert (M : to_u32 (1 / 2 / (1 / 2)) = Ok 1%Z).
  { unfold to_u32. rrn. replace (1 / 2 / (1 / 2)) with (IZR 1) by (cbn; field). rewrite Ztrunc_IZR. reflexivity. }
  rewrite M. cbn [bind]. change (u32 (1 + 1) =? 0)%Z with false. cbv iota.
  change (Z.to_nat 100) with (S 99). cbn [rk45_co_loop].
  destruct (index_R 5 (1 / 2) (1 / 2) ltac:(unfold two32; lia) ltac:(lra) ltac:(lra)) as (i & I & Hi). rewrite I. cbn [bind].
  assert (C : col_at l i = Ok (V3 0 0 0)).
  { assert (i = 0 \/ i = 1 \/ i = 2 \/ i = 3 \/ i = 4)%Z as [->|[->|[->|[->| ->]]]] by lia; reflexivity. }
  rewrite C. cbn [bind].
  assert (S : rk45_co_step decay (V3 1 2 3) (V3 0 0 0) (V3 0 0 0) (omni_fdx (V3 0 0 0) (V3 0 0 0)) (1 / 2) = Ok (V3 1 2 3, 0)).
  { unfold rk45_co_step, decay. rewrite c83_stages by lra. unfold fehlberg5, fehlberg4, excess, taylor4. f_equal. f_equal.
    - unfold times. cbn [v0 v1 v2]. rrn. apply V3_eq; field.
    - rrn. match goal with |- Rabs ?z * _ / _ = _ => replace z with 0 by field end. rewrite Rabs_R0. field. }
  rewrite S. cbn [bind]. unfold rk45_accept. cbn [rk_eps nlt RNum]. rewrite (proj2 (Rltb_true 0 (1 / 100))) by lra. cbn [orb].
  match goal with |- context [(lenZ ?a <? u32 (1 + 1))%Z] => change (lenZ a <? u32 (1 + 1))%Z with true end. cbv iota. cbn [bind].
  change (nsub (1 / 2) (1 / 2)) with (1 / 2 - 1 / 2). replace (1 / 2 - 1 / 2) with 0 by lra.
  destruct (adapt_range (mkRK45 (1 / 2) (1 / 2) (1 / 100) 100) (1 / 2) 0 ltac:(cbn; lra)) as (h & A & _). rewrite A. cbn [bind].
  change (@n0 R RNum) with 0. rewrite (proj2 (almost_equal_R 0 0)) by (replace (0 - 0) with 0 by ring; rewrite Rabs_R0; lra).
  rewrite orb_true_r. reflexivity.
Qed.
