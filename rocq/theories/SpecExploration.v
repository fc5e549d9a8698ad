(** Reference notions for the exploration loop, independent of the stages of the model. *)
From Coq Require Import ZArith List Bool.
From Verif Require Import Outcome Num GridModel CollisionModel NumericsModel BufferModel DwaModel ErgodicModel ExplorationModel SpecDwa.
Import ListNotations.

Section Any.
Context {T : Type} {NT : Num T}.

(** The twists among what is published *)
Definition commands (out : list (output T)) : list (vec3 T) :=
  flat_map (fun o => match o with Cmd u => [u] | _ => [] end) out.
(** The ergodic controller planned, visible on the topic trajectory; the dynamic window took over, visible on
    dwa_trajectory. *)
Definition planned (e : event T) : Prop := exists p, In (Traj p) (ev_out e).
Definition took_over (e : event T) : Prop := exists p, In (DwaTraj p) (ev_out e).
Definition messages (evs : list (event T)) : list (message T) := flat_map (fun e => ev_early e ++ ev_late e) evs.
(** A map message whose callback has returned: another callback started since, or none is running. *)
Definition map_processed (ms : list (message T)) (s : shared T) : Prop :=
  exists a m b, ms = a ++ MMap m :: b /\ (b <> [] \/ sh_todo s = []).

(** The pose after some lookups: that of the last one which succeeded. *)
Definition last_pose (x : vec3 T) (lks : list (option (transform T))) : vec3 T :=
  fold_left (fun x o => match o with Some t => tf_pose t | None => x end) lks x.
Definition looked_up (lks : list (option (transform T))) : list (vec3 T) :=
  flat_map (fun o => match o with Some t => [tf_pose t] | None => [] end) lks.
(** The pose an iteration works with, and the maps it reads. *)
Definition ev_pose (e : event T) : vec3 T := lp_pose (ev_post e).
Definition check_map (e : event T) : grid T := sh_grid (mo_check (ev_at e)).
Definition dwa_map (e : event T) : grid T := sh_grid (mo_dwa (ev_at e)).
Definition dwa_vb (e : event T) : vec3 T := sh_vb (mo_dwa (ev_at e)).
Definition map_at_publication (e : event T) : grid T := sh_grid (mo_pub (ev_at e)).

(** The number of whole steps in the validation horizon *)
Definition val_steps (n : node T) (k : nat) : Prop :=
  (Z.of_nat k < two32)%Z /\ ntrunc (nabs (nd_val_horizon n / nd_val_dt n)%num) = Some (Z.of_nat k).
(** The rollout of [u] over the validation horizon is free of collisions on [g], or is not. *)
Definition passes (n : node T) (g : grid T) (x u : vec3 T) : Prop :=
  exists k, val_steps n k /\ Forall (clear (nd_collision n) g) (rollout k (nd_val_dt n) u x).
Definition hits (n : node T) (g : grid T) (x u : vec3 T) : Prop :=
  exists k, val_steps n k /\ Exists (crash (nd_collision n) g) (rollout k (nd_val_dt n) u x).

(** The number of iterations, the first included, after which following ends at the latest: the counter is an
    unsigned int compared for equality. *)
Definition turns (n : node T) : Z := if (dw_steps (nd_dwa n) =? 0)%Z then two32 else dw_steps (nd_dwa n).
End Any.
