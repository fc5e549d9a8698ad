(** Model of ergodic_control.hpp.  Definitions only. *)
From Verif Require Import Outcome Num GridModel NumericsModel BufferModel BasisModel RobotModel.
Local Open Scope num_scope.

Section Ergodic.
Context {T : Type} {NT : Num T}.

(** What ErgodicControl uses of a ModelT whose controls are body twists (Omni, SimpleCart). *)
Record plant := mkPlant { pl_robot : robot T (vec3 T); pl_fdu : vec3 T -> mat3 T }.
Definition omni_plant : plant := mkPlant omni omni_fdu.
Definition cart_plant : plant := mkPlant simple_cart simple_fdu.

(** ergodic_control.hpp:166-185: the data members.  collision_ is never used.  phik_ is [None] until
    configTarget has filled it. *)
Record ec := mkEC {
  ec_model : plant; ec_dt : T; ec_horizon : T; ec_resolution : T; ec_weight : T; ec_steps : Z; ec_Rinv : mat3 T;
  ec_ut : list (vec3 T); ec_phik : option (list T); ec_rhoT : vec3 T; ec_map_pos : T * T;
  ec_umin : vec3 T; ec_umax : vec3 T; ec_pose : vec3 T; ec_basis : basis T; ec_buffer : buffer T; ec_target : target T }.

Definition zero3 : vec3 T := V3 n0 n0 n0.
(** ergodic_control.hpp:188-222 *)
Definition ec_ctor (model : plant) (dt horizon resolution weight : T) (num_basis buffer_size batch_size : Z)
    (Rinv : mat3 T) (umin umax : vec3 T) : res ec :=
  let* steps := num_steps dt horizon in
  let* bs := basis_ctor n0 n0 num_basis in
  if (steps =? 1)%Z then Throw EInvalidArgument
  else Ok (mkEC model dt horizon resolution weight steps Rinv (repeat zero3 (Z.to_nat steps)) None zero3 (n0, n0)
             umin umax zero3 bs (buffer_ctor buffer_size batch_size) []).

(** Copies with one member changed. *)
Definition set_ut (e : ec) ut : ec := mkEC (ec_model e) (ec_dt e) (ec_horizon e) (ec_resolution e) (ec_weight e) (ec_steps e)
  (ec_Rinv e) ut (ec_phik e) (ec_rhoT e) (ec_map_pos e) (ec_umin e) (ec_umax e) (ec_pose e) (ec_basis e) (ec_buffer e) (ec_target e).
Definition set_pose (e : ec) x : ec := mkEC (ec_model e) (ec_dt e) (ec_horizon e) (ec_resolution e) (ec_weight e) (ec_steps e)
  (ec_Rinv e) (ec_ut e) (ec_phik e) (ec_rhoT e) (ec_map_pos e) (ec_umin e) (ec_umax e) x (ec_basis e) (ec_buffer e) (ec_target e).
Definition set_buffer (e : ec) b : ec := mkEC (ec_model e) (ec_dt e) (ec_horizon e) (ec_resolution e) (ec_weight e) (ec_steps e)
  (ec_Rinv e) (ec_ut e) (ec_phik e) (ec_rhoT e) (ec_map_pos e) (ec_umin e) (ec_umax e) (ec_pose e) (ec_basis e) b (ec_target e).
Definition set_target (e : ec) t : ec := mkEC (ec_model e) (ec_dt e) (ec_horizon e) (ec_resolution e) (ec_weight e) (ec_steps e)
  (ec_Rinv e) (ec_ut e) (ec_phik e) (ec_rhoT e) (ec_map_pos e) (ec_umin e) (ec_umax e) (ec_pose e) (ec_basis e) (ec_buffer e) t.
Definition set_domain (e : ec) phik pos bs : ec := mkEC (ec_model e) (ec_dt e) (ec_horizon e) (ec_resolution e) (ec_weight e) (ec_steps e)
  (ec_Rinv e) (ec_ut e) phik (ec_rhoT e) pos (ec_umin e) (ec_umax e) (ec_pose e) bs (ec_buffer e) (ec_target e).

(** A state as a column of the replay buffer and back; the buffer only holds columns of length 3. *)
Definition to_col (v : vec3 T) : list T := [v0 v; v1 v; v2 v].
Definition of_col (l : list T) : vec3 T := V3 (nth 0 l n0) (nth 1 l n0) (nth 2 l n0).
Definition xy (v : vec3 T) : T * T := (v0 v, v1 v).

(** ergodic_control.hpp:344-348 *)
Definition addStateMemory (e : ec) (x : vec3 T) : ec := set_buffer e (append (ec_buffer e) (to_col x)).
(** ergodic_control.hpp:356-360 *)
Definition setTarget (e : ec) (t : target T) : ec := set_target e t.

(** a, a + d, a + d + d, ... ([n] numbers) *)
Fixpoint accum (n : nat) (a d : T) : list T :=
  match n with O => [] | S n' => a :: accum n' (a + d) d end.
(** ergodic_control.hpp:388-409.  The number of columns is an unsigned product; writing beyond it fails the
    bounds check. *)
Definition phi_points (nx ny : Z) (resolution : T) : res (list (T * T)) :=
  if (u32 (nx * ny) <? nx * ny)%Z then Throw EArma
  else Ok (flat_map (fun y => map (fun x => (x, y)) (accum (Z.to_nat nx) n0 resolution)) (accum (Z.to_nat ny) n0 resolution)).
(** ergodic_control.hpp:362-416 *)
Definition configTarget (e : ec) (g : grid T) : res ec :=
  let pos := (g_xmin g, g_ymin g) in
  let mx := g_xmax g - g_xmin g in
  let my := g_ymax g - g_ymin g in
  if almost_equal mx (bs_lx (ec_basis e)) && almost_equal my (bs_ly (ec_basis e)) then
    Ok (set_domain e (ec_phik e) pos (ec_basis e))
  else
    let bs := mkBasis mx my (bs_lam (ec_basis e)) (bs_k (ec_basis e)) in
    let* ax := axis_length n0 mx (ec_resolution e) in
    let* ay := axis_length n0 my (ec_resolution e) in
    let nx := u32 (ax + 1) in
    let ny := u32 (ay + 1) in
    let* pts := phi_points nx ny (ec_resolution e) in
    let* phik := spatialCoeff bs (fill (ec_target e) pos pts) pts in
    Ok (set_domain e (Some phik) pos bs).

(** ergodic_control.hpp:418-436.  The matrix-vector product adds from left to right (BLAS may use another
    order); phik_ is read here, which is undefined behaviour if it was never filled. *)
Definition edx_col (e : ec) (diff : list T) (x : vec3 T) : vec3 T :=
  let gr := gradFourierBasis (ec_basis e) (xy x) in
  V3 (vsum (map (fun p => fst (fst p) * snd p) (combine gr diff)) * ec_weight e)
     (vsum (map (fun p => snd (fst p) * snd p) (combine gr diff)) * ec_weight e) n0.
Definition gradErgodicMetric (e : ec) (ck : list T) (xt : list (vec3 T)) : res (list (vec3 T)) :=
  match ec_phik e with
  | None => UB UUninit
  | Some phik =>
      let diff := map (fun p => fst p * (fst (snd p) - snd (snd p))) (combine (bs_lam (ec_basis e)) (combine ck phik)) in
      Ok (map (edx_col e diff) xt)
  end.

(** ergodic_control.hpp:464-468: a bool in a product *)
Definition nbool (b : bool) : T := if b then n1 else n0.
Definition barrier_eps : T := lit 5 100.
(** ergodic_control.hpp:462-471, one component, [l] being the extent of the domain *)
Definition bdx_at (l x : T) : T :=
  (n0 + n2 * nbool (l - barrier_eps <? x) * (x - (l - barrier_eps)) + n2 * nbool (x <? barrier_eps) * (x - barrier_eps)) * nofZ 25.
(** ergodic_control.hpp:453-474 *)
Definition gradBarrier (e : ec) (xt : list (vec3 T)) : list (vec3 T) :=
  map (fun x => V3 (bdx_at (bs_lx (ec_basis e)) (v0 x)) (bdx_at (bs_ly (ec_basis e)) (v1 x)) n0) xt.

(** ergodic_control.hpp:443-449, one column, where std::clamp is defined *)
Definition new_control (e : ec) (x rho : vec3 T) : vec3 T :=
  let u := vneg (mvmul (ec_Rinv e) (mtvmul (pl_fdu (ec_model e) x) rho)) in
  V3 (fclamp (v0 u) (v0 (ec_umin e)) (v0 (ec_umax e))) (fclamp (v1 u) (v1 (ec_umin e)) (v1 (ec_umax e)))
     (fclamp (v2 u) (v2 (ec_umin e)) (v2 (ec_umax e))).
(** ergodic_control.hpp:438-451; [xt], [rhot] and ut_ have the same number of columns *)
Definition new_controls (e : ec) (xt rhot : list (vec3 T)) : list (vec3 T) :=
  map (fun p => new_control e (fst p) (snd p)) (combine xt rhot).
Definition clamps_defined (e : ec) : bool :=
  clampable (v0 (ec_umin e)) (v0 (ec_umax e)) && clampable (v1 (ec_umin e)) (v1 (ec_umax e)) && clampable (v2 (ec_umin e)) (v2 (ec_umax e)).
Definition updateControl (e : ec) (xt rhot : list (vec3 T)) : res (list (vec3 T)) :=
  match combine xt rhot with
  | [] => Ok []
  | _ => if clamps_defined e then Ok (new_controls e xt rhot) else UB UClamp
  end.

(** ergodic_control.hpp:232-234: with fewer than two columns a submatrix view is out of range *)
Definition shift_controls (ut : list (vec3 T)) : res (list (vec3 T)) :=
  match ut with [] | [_] => Throw EArma | _ :: ut' => Ok (ut' ++ [zero3]) end.

(** ergodic_control.hpp:224-311.  [draws] is what arma::randi returns inside sampleMemory.  When it throws, the
    members already assigned keep their new values in the code; the model has no state then. *)
Definition ec_control (e : ec) (g : grid T) (x : vec3 T) (draws : list Z) : res (vec3 T * ec) :=
  let e := set_pose e x in
  let* e := configTarget e g in
  let* ut := shift_controls (ec_ut e) in
  let* traj := rk4_solve (ec_dt e) (rb_f (pl_robot (ec_model e))) x ut (ec_horizon e) in
  let* total := sampleMemory (ec_buffer e) draws (mkMat 3 (map to_col traj)) in
  let xt_total := map (fun c => let v := of_col c in V3 (v0 v - fst (ec_map_pos e)) (v1 v - snd (ec_map_pos e)) (v2 v)) (m_cols total) in
  (* cols(n_cols - steps_, n_cols - 1): an empty range is out of bounds *)
  if ((ec_steps e =? 0) || (lenZ xt_total <? ec_steps e))%Z then Throw EArma else
  let xt := skipn (Z.to_nat (lenZ xt_total - ec_steps e)) xt_total in
  let ck := trajCoeff (ec_basis e) (map xy xt_total) in
  let* edx := gradErgodicMetric e ck xt in
  let bdx := gradBarrier e xt in
  let* rhot := co_solve (ec_dt e) rhodot (rb_fdx (pl_robot (ec_model e))) (ec_rhoT e) xt ut edx bdx (ec_horizon e) in
  let* ut := updateControl e xt rhot in
  let* u := col_at ut 0 in
  Ok (u, set_ut e ut).

(** ergodic_control.hpp:313-317 *)
Definition optTraj (e : ec) : res (list (vec3 T)) :=
  rk4_solve (ec_dt e) (rb_f (pl_robot (ec_model e))) (ec_pose e) (ec_ut e) (ec_horizon e).
(** ergodic_control.hpp:319-342: path.poses has steps_ elements, accessed with at() *)
Definition ec_path (e : ec) : res (list (pose T)) :=
  let* traj := optTraj e in
  if (ec_steps e <? lenZ traj)%Z then Throw EOutOfRange
  else Ok (map (fun x => mkPose (v0 x) (v1 x) (setRPY n0 n0 (normalize_angle_PI (v2 x)))) traj).

End Ergodic.
Arguments plant T : clear implicits.
Arguments ec T : clear implicits.
