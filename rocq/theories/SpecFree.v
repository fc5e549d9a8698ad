(** Reference notions for nodes that see no obstacle. *)
From Coq Require Import ZArith List Bool.
From Verif Require Import Outcome Num GridModel CollisionModel NumericsModel BufferModel DwaModel ErgodicModel ExplorationModel Spec.
Import ListNotations.

Section Any.
Context {T : Type} {NT : Num T}.

(** Every cell of the map is below the threshold; unknown cells are negative. *)
Definition open_data (thr : T) (d : list Z) : Prop := forall v, In v d -> nlt (nofZ v / nofZ 100)%num thr = true.
Definition open_maps (thr : T) (ms : list (message T)) : Prop := forall m, In (MMap m) ms -> open_data thr (m_data m).
(** The maps hold bytes, as nav_msgs/OccupancyGrid does. *)
Definition byte_maps (ms : list (message T)) : Prop := forall m, In (MMap m) ms -> Forall is_byte (m_data m).
(** The controls held after an iteration *)
Definition held (e : event T) : list (vec3 T) := ec_ut (lp_ec (ev_post e)).
End Any.
