(** Reference notions for checks during which the map changes. *)
From Coq Require Import ZArith List Bool.
From Verif Require Import Outcome Num GridModel CollisionModel NumericsModel BufferModel DwaModel ErgodicModel ExplorationModel FineModel SpecDwa SpecExploration.
Import ListNotations.

Section Any.
Context {T : Type} {NT : Num T}.

(** Each of the poses is clear on the map of its own moment. *)
Definition clear_in_turn (c : collision T) (ss : list (shared T)) (ps : list (vec3 T)) : Prop :=
  Forall2 (fun s p => clear c (sh_grid s) p) ss ps.
(** The first poses are, and one is found in collision at the next moment. *)
Definition crash_in_turn (c : collision T) (ss : list (shared T)) (ps : list (vec3 T)) : Prop :=
  exists ss0 s ss1 ps0 p ps1, ss = ss0 ++ s :: ss1 /\ ps = ps0 ++ p :: ps1 /\ clear_in_turn c ss0 ps0 /\ crash c (sh_grid s) p.
Definition fine_pose (e : fine_event T) : vec3 T := lp_pose (fe_post e).
Definition fine_messages (evs : list (fine_event T)) : list (message T) := flat_map fe_msgs evs.
End Any.
