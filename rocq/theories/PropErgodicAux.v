(** Concrete runs of the ergodic controller in binary64, for PropErgodic. *)
From Coq Require Import Reals ZArith List Bool.
From Flocq Require Import IEEE754.BinarySingleNaN.
From Verif Require Import Outcome Num Float64 GridModel NumericsModel BufferModel BasisModel RobotModel ErgodicModel SpecErgodic ErgodicFloat PropMappingAux.
Import ListNotations.
Local Open Scope Z_scope.

(** The exponential underflows as every correct one does; otherwise the toy functions. *)
Definition far_libm : libm := {| m_sin := m_sin toy_libm; m_cos := m_cos toy_libm;
  m_exp := fun x => if is_nan x then x else if Bltb x (b (-746) 0) then b 0 0 else b 1 0;
  m_log := m_log toy_libm; m_atan2 := m_atan2 toy_libm; m_pow := m_pow toy_libm |}.
Definition NF : Num b64 := F64 far_libm.
Definition o0 : b64 := b 0 0.
(** The cart with dt = 1/2, horizon 3/2 and the limits of the cart node. *)
Definition cart_ec : res (ec b64) :=
  @ec_ctor b64 NF (@cart_plant b64 NF) (b 1 (-1)) (b 3 (-1)) (b 1 0) (b 1 0) 2 10 5
    (M3 (V3 (b 1 0) o0 o0) (V3 o0 o0 o0) (V3 o0 o0 (b 1 0))) (V3 (b (-1) 0) o0 (b (-1) 0)) (V3 (b 1 0) o0 (b 1 0)).
Definition map2 : grid b64 := mkGrid 2 2 (b 1 0) o0 o0 (b 2 0) (b 2 0) [0; 0; 0; 0].
Definition pose1 : vec3 b64 := V3 (b 1 0) (b 1 0) o0.
(** One Gaussian with standard deviations 1 at (m, m) *)
Definition peak64 (m : Z) : res (target b64) :=
  let* g := @gaussian_ctor b64 NF (b m 0, b m 0) (b 1 0, b 1 0) in Ok [g].
Definition run_ec (m : Z) (p : ec b64 -> ec b64 -> vec3 b64 -> ec b64 -> bool) : bool :=
  match cart_ec with
  | Ok e0 => match peak64 m with
    | Ok t => match @ec_control b64 NF (setTarget e0 t) map2 pose1 [] with Ok (u, e) => p e0 (setTarget e0 t) u e | _ => false end
    | _ => false end
  | _ => false
  end.
Definition throws {A} (r : res A) : bool := match r with Throw EInvalidArgument => true | _ => false end.
(** With the Gaussian 100 m away the first call returns NaN and the second throws; with it on the map both succeed
    with numbers. *)
Lemma far_run : run_ec 100 (fun _ _ u e => is_nan (v0 u) && is_nan (v1 u) && is_nan (v2 u) && throws (@ec_control b64 NF e map2 pose1 [])) = true.
Proof. vm_compute. reflexivity. Qed.
Lemma near_run : run_ec 1 (fun _ _ u e => negb (is_nan (v0 u)) && negb (is_nan (v1 u)) && is_ok (@ec_control b64 NF e map2 pose1 [])) = true.
Proof. vm_compute. reflexivity. Qed.
Lemma far_away : exists (L : libm) (e0 e : ec b64) g x t u, @constructed b64 (F64 L) e0 /\ ec_model e0 = @cart_plant b64 (F64 L) /\
  limits64 e0 /\ v1 (ec_umin e0) = @n0 b64 (F64 L) /\ v1 (ec_umax e0) = @n0 b64 (F64 L) /\ length t = 1%nat /\
  @ec_control b64 (F64 L) (setTarget e0 t) g x [] = Ok (u, e) /\ is_nan (v0 u) = true /\ is_nan (v1 u) = true /\ is_nan (v2 u) = true /\
  @ec_control b64 (F64 L) e g x [] = Throw EInvalidArgument.
Proof.
  pose proof far_run as R. unfold run_ec in R. destruct cart_ec as [e0| | |] eqn:C; try discriminate. destruct (peak64 100) as [t| | |] eqn:P; try discriminate.
  destruct (ec_control _ _ _ _) as [[u e]| | |] eqn:K; try discriminate. rewrite !andb_true_iff in R. destruct R as (((N0 & N1) & N2) & T).
  exists far_libm, e0, e, map2, pose1, t, u.
  assert (E : e0 = mkEC (@cart_plant b64 NF) (b 1 (-1)) (b 3 (-1)) (b 1 0) (b 1 0) (ec_steps e0)
    (M3 (V3 (b 1 0) o0 o0) (V3 o0 o0 o0) (V3 o0 o0 (b 1 0))) (ec_ut e0) (ec_phik e0) (ec_rhoT e0) (ec_map_pos e0) (V3 (b (-1) 0) o0 (b (-1) 0)) (V3 (b 1 0) o0 (b 1 0))
    (ec_pose e0) (ec_basis e0) (ec_buffer e0) (ec_target e0)).
  { unfold cart_ec, ec_ctor in C. destruct (num_steps _ _); cbn [bind] in C; try discriminate. destruct (basis_ctor _ _ _); cbn [bind] in C; try discriminate.
    destruct (_ =? _); [discriminate|]. injection C as <-. reflexivity. }
  assert (Z : o0 = @n0 b64 (F64 far_libm)) by (apply B2SF_inj; vm_compute; reflexivity).
  split. { do 11 eexists. split; [|exact C]. repeat split; discriminate. }
  split; [rewrite E; reflexivity|]. split; [rewrite E; repeat split; vm_compute; reflexivity|].
  split; [rewrite E; exact Z|]. split; [rewrite E; exact Z|]. split.
  { unfold peak64 in P. destruct (gaussian_ctor _ _); cbn [bind] in P; try discriminate. injection P as <-. reflexivity. }
  split; [exact K|]. repeat (split; [assumption|]). destruct (ec_control e map2 pose1 []) as [|[]| |]; try discriminate. reflexivity.
Qed.
