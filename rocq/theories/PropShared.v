(** Property C84: the members shared by the callbacks and the loop; and the size and the default of C03.  The notions are
    defined in SpecShared.v. *)
From Coq Require Import Reals ZArith List Bool Lia.
From Flocq Require Import IEEE754.BinarySingleNaN.
From Verif Require Import Outcome Num Float64 GridModel CollisionModel NumericsModel BufferModel DwaModel ErgodicModel ExplorationModel
  Spec SpecExploration SpecShared SharedProofs PropMappingAux PropDwaAux PropExplorationAux.
Import ListNotations.
Local Open Scope Z_scope.

(** ** C84 *)
(** At any moment the members hold the effects of whole messages, except that the callback which is running has assigned
    the first members of its message. *)
Theorem C84_callbacks : forall (T : Type) (NT : Num T) ms (s s' : shared T), sh_todo s = [] -> callbacks ms s s' -> consistent ms s s'.
Proof. exact (fun T NT => c84_callbacks). Qed.
Print Assumptions C84_callbacks.
(** Everything the loop reads is of that form. *)
Theorem C84_loop : forall (T : Type) (NT : Num T) n l evs (s' : shared T) l' e r, exec n shared_init l evs s' l' -> In e evs -> In r (reads (ev_at e)) ->
  exists ms rest, messages evs = ms ++ rest /\ consistent ms shared_init r.
Proof. exact (fun T NT => c84_exec). Qed.
Print Assumptions C84_loop.
(** The size of a new map with the data of the old one. *)
Example C84_example : exists s : shared R, callbacks [MMap (mkMsg 2 1 1%R 0%R 0%R [10; 20]); MMap (mkMsg 3 1 1%R 5%R 5%R [30; 40; 50])] shared_init s /\
  g_xsize (sh_grid s) = 3 /\ g_data (sh_grid s) = [10; 20] /\ sh_recv s = true.
Proof.
  eexists. split.
  - apply cb_start; [reflexivity|]. do 9 (eapply cb_write; [reflexivity|]). apply cb_start; [reflexivity|]. eapply cb_write; [reflexivity|]. apply cb_none.
  - repeat split.
Qed.
Example C84_example_loop : exists n l evs s l' e, @exec b64 NN n (@shared_init b64 NN) l evs s l' /\ In e evs /\ exists u, In (Cmd u) (ev_out e).
Proof.
  destruct moving_exec as (n & l & evs & s & l' & e & u & X & I & O & _). exists n, l, evs, s, l', e. split; [exact X|]. split; [exact I|].
  exists u. exact O.
Qed.

(** ** C03 *)
(** size() counts the cells of a map with fewer than 2^32; a map without a message is empty. *)
Theorem C03_size : forall (T : Type) (NT : Num T) (g : grid T), dims g -> cells g < 2 ^ 32 -> grid_size g = cells g.
Proof. exact (fun T NT => size_cells). Qed.
Print Assumptions C03_size.
Theorem C03_size_wraps_refuted : exists g : grid R, dims g /\ cells g = 2 ^ 32 /\ grid_size g = 0.
Proof. exact size_wraps. Qed.
Print Assumptions C03_size_wraps_refuted.
Theorem C03_default : forall (T : Type) (NT : Num T), let g := @grid_default T NT in
  g_xsize g = 0 /\ g_ysize g = 0 /\ grid_size g = 0 /\ g_data g = [] /\ [g_res g; g_xmin g; g_ymin g; g_xmax g; g_ymax g] = repeat n0 5.
Proof. exact @default_empty. Qed.
Print Assumptions C03_default.
Example C03_example_size : let g := mkGrid 3 2 (1 / 2)%R 0%R 0%R (3 / 2)%R 1%R [0; 50; 100; -1; 7; 99] in dims g /\ cells g < 2 ^ 32 /\ grid_size g = 6.
Proof. unfold dims, is_u32, cells, grid_size. cbn. lia. Qed.
