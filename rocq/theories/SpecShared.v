(** Reference notions for the members shared by the callbacks and the loop. *)
From Coq Require Import ZArith List Bool.
From Verif Require Import Outcome Num GridModel CollisionModel NumericsModel BufferModel DwaModel ErgodicModel ExplorationModel.
Import ListNotations.

Section Any.
Context {T : Type} {NT : Num T}.

(** The map of the last map message, the velocity of the last odometry message, and whether there was a map. *)
Definition last_map (g : grid T) (ms : list (message T)) : grid T :=
  fold_left (fun g m => match m with MMap m => grid_of_msg m | MOdom _ => g end) ms g.
Definition last_odom (v : vec3 T) (ms : list (message T)) : vec3 T :=
  fold_left (fun v m => match m with MMap _ => v | MOdom v => v end) ms v.
Definition any_map (ms : list (message T)) : bool := existsb (fun m => match m with MMap _ => true | MOdom _ => false end) ms.

(** The first [k] of the eight members of a map from [new], in the order of their declaration in the message, width,
    height, resolution, origin, upper limits and data, the others from [old]; likewise for velocities. *)
Definition torn (k : nat) (old new : grid T) : grid T :=
  let pick {A} (i : nat) (f : grid T -> A) : A := f (if (i <? k)%nat then new else old) in
  mkGrid (pick 0%nat (@g_xsize T)) (pick 1%nat (@g_ysize T)) (pick 2%nat (@g_res T)) (pick 3%nat (@g_xmin T)) (pick 4%nat (@g_ymin T))
    (pick 5%nat (@g_xmax T)) (pick 6%nat (@g_ymax T)) (pick 7%nat (@g_data T)).
Definition torn_vb (k : nat) (old new : vec3 T) : vec3 T :=
  let pick i f := f (if (i <? k)%nat then new else old) in V3 (pick 0%nat v0) (pick 1%nat v1) (pick 2%nat v2).

(** What [s'] may hold after the callbacks of [ms] were started, in this order, from [s]: the effects of all the
    messages; or of all but the last one and a part of the last one. *)
Definition settled (ms : list (message T)) (s s' : shared T) : Prop :=
  sh_grid s' = last_map (sh_grid s) ms /\ sh_vb s' = last_odom (sh_vb s) ms /\ sh_recv s' = sh_recv s || any_map ms.
Definition consistent (ms : list (message T)) (s s' : shared T) : Prop :=
  (sh_todo s' = [] /\ settled ms s s') \/
  exists pre m, sh_todo s' <> [] /\ ms = pre ++ [m] /\ sh_recv s' = sh_recv s || any_map pre /\
    match m with
    | MMap m => exists k, (k <= 8)%nat /\ sh_grid s' = torn k (last_map (sh_grid s) pre) (grid_of_msg m) /\ sh_vb s' = last_odom (sh_vb s) pre
    | MOdom v => exists k, (k <= 2)%nat /\ sh_vb s' = torn_vb k (last_odom (sh_vb s) pre) v /\ sh_grid s' = last_map (sh_grid s) pre
    end.
(** The moments of an iteration at which the loop reads. *)
Definition reads (t : moments T) : list (shared T) := [mo_test t; mo_plan t; mo_check t; mo_dwa t; mo_pub t].
End Any.
