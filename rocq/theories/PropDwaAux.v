(** Concrete runs of the dynamic window in binary64, for the examples of PropDwa.  The robot drives along +x, so
    the toy sine and cosine (0 and 1) are exact. *)
From Coq Require Import Reals ZArith List Bool Lra Lia.
From Flocq Require Import Core.Raux IEEE754.BinarySingleNaN.
From Verif Require Import Outcome Num Float64 GridModel CollisionModel NumericsModel RobotModel DwaModel Spec SpecRobot SpecDwa SpecSystem
  DwaProofs PredictProofs PropMappingAux.
Import ListNotations.
Local Open Scope Z_scope.

(** 10 x 10 free cells of size 1; [k] is made occupied if below 100 *)
Definition room (k : nat) : grid b64 :=
  mkGrid 10 10 (b 1 0) (b 0 0) (b 0 0) (b 10 0) (b 10 0) (firstn 100 (repeat 0 k ++ 100 :: repeat 0 100)).
Definition body1 : collision b64 := mkCollision (b 1 0) (b 2 0) (b 1 (-1)) (b 1 (-1)).
Definition x5 : vec3 b64 := V3 (b 11 (-1)) (b 11 (-1)) (b 0 0).
Definition at3 (x y w : b64) : vec3 b64 := V3 x y w.
Definition z0 : b64 := b 0 0.
(** steps of 1/2 up to 1 second; a second of acceleration 4; vx within [-1, 1] in [n] samples, vy and w fixed to 0 *)
Definition window1 (n : Z) : res (dwa b64) :=
  @dwa_ctor b64 (F64 toy_libm) body1 (b 1 (-1)) (b 1 0) (b 1 0) (b 4 0) z0 z0 (b 1 0) (b (-1) 0) z0 z0 z0 z0 n 0 0.
Definition run (n : Z) (k : nat) (vb vref : vec3 b64) : res (bool * vec3 b64) :=
  let* d := window1 n in @dwa_control b64 (F64 toy_libm) d (room k) x5 vb vref.
Definition run_follow (n : Z) (k : nat) (vb : vec3 b64) (ref : list (vec3 b64)) (dtr : b64) : res (bool * vec3 b64) :=
  let* d := window1 n in @dwa_follow b64 (F64 toy_libm) d (room k) x5 vb ref dtr.
Definition check (p : bool -> vec3 b64 -> bool) (r : res (bool * vec3 b64)) : bool :=
  match r with Ok (s, u) => p s u | _ => false end.

(** The same room, robot and window over the reals *)
Definition yard : grid R := mkGrid 10 10 1%R 0%R 0%R 10%R 10%R (repeat 0 100).
Definition bodyR : collision R := mkCollision 1%R 2%R (1 / 2)%R (1 / 2)%R.
Definition windowR : dwa R := mkDwa bodyR (1 / 2)%R 1%R 1%R (V3 4 0 0)%R (V3 1 0 0)%R (V3 (-1) 0 0)%R 3 1 1 2.
Definition x5R : vec3 R := V3 (11 / 2)%R (11 / 2)%R 0%R.
Lemma yard_proper : proper_map yard.
Proof. unfold proper_map, cells, sized. cbn. split; [lra|]. split; [lia|reflexivity]. Qed.
Lemma body_radii : proper_radii bodyR yard.
Proof.
  unfold proper_radii. cbv zeta. cbn [bodyR yard c_brad c_othr c_srad g_res].
  rewrite (Zfloor_imp 1 (1 / 1)) by (cbn; lra). rewrite (Zfloor_imp 1 ((1 + 1 / 2) / 1)) by (cbn; lra). rewrite (Zfloor_imp 2 (2 / 1)) by (cbn; lra). lia.
Qed.
Lemma windowR_answers u p : sampled windowR (V3 0 0 0)%R u -> In p (rollout (Z.to_nat (dw_steps windowR)) (dw_dt windowR) u x5R) ->
  is_ok (collisionCheck (dw_collision windowR) yard (v0 p) (v1 p)) = true.
Proof.
  intros (A & B & _) I. cbn [windowR dw_steps dw_dt dw_collision dw_acc dw_acc_dt dw_min dw_max dw_nx dw_ny v0 v1 v2] in *.
  apply c51_axis in A; [|lra..]. apply c51_axis in B; [|lra..]. apply on_map_answers; [exact yard_proper|exact body_radii|].
  apply (rollout_on_map yard x5R 1 2 (1 / 2) u); [lra| | |exact I].
  - apply space_near; cbn; lra.
  - assert (S : (speed u <= 1)%R). { unfold speed. apply Rle_trans with (sqrt 1); [apply sqrt_le_1_alt; nra|rewrite sqrt_1; lra]. }
    rewrite Rabs_pos_eq by lra. cbn. lra.
Qed.
