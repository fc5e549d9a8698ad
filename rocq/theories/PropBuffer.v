(** Properties C18, C19: the replay buffer. *)
From Coq Require Import ZArith List Lia.
From Verif Require Import Outcome BufferModel BufferProofs.
Import ListNotations.
Local Open Scope Z_scope.

(** C18: after any history [h] of appends to a new buffer, key k holds the k-th appended state if k is
    below the capacity, and no other key exists ... *)
Theorem C18_keeps_the_oldest : forall {T} cap batch (h : list (list T)) k, 0 <= cap < 2 ^ 32 ->
  mem_at (b_mem (fold_left append h (buffer_ctor cap batch))) k =
  if k <? cap then match nthZ h k with Some v => Ok v | None => Throw EOutOfRange end else Throw EOutOfRange.
Proof. exact @c18_contents. Qed.
Print Assumptions C18_keeps_the_oldest.
(** ... and that many states are stored. *)
Theorem C18_number_stored : forall {T} cap batch (h : list (list T)), 0 <= cap < 2 ^ 32 ->
  lenZ (b_mem (fold_left append h (buffer_ctor cap batch))) = Z.min cap (lenZ h).
Proof. exact @c18_size. Qed.
Print Assumptions C18_number_stored.
Example C18_example : 0 <= 2 < 2 ^ 32 /\
  mem_at (b_mem (fold_left append [[1]; [2]; [3]] (buffer_ctor 2 5))) 1 = Ok [2] /\
  mem_at (b_mem (fold_left append [[1]; [2]; [3]] (buffer_ctor 2 5))) 2 = Throw EOutOfRange.
Proof. split; [lia|split; reflexivity]. Qed.

(** C19: everything stored fits in the batch. *)
Theorem C19_all_stored_then_trajectory : forall {T} cap batch (h : list (list T)) draws (xt : amat T),
  0 <= cap < 2 ^ 32 -> Forall (fun v => lenZ v = m_rows xt) h -> m_cols xt <> [] ->
  Z.min cap (lenZ h) <= batch ->
  sampleMemory (fold_left append h (buffer_ctor cap batch)) draws xt =
  Ok (mkMat (m_rows xt) (firstn (Z.to_nat cap) h ++ m_cols xt)).
Proof. exact @c19_small. Qed.
Print Assumptions C19_all_stored_then_trajectory.
(** More stored than the batch: whatever the draws, the sampled columns are the states drawn, all of
    them among the first [cap] appended, followed by the trajectory. *)
Theorem C19_samples_then_trajectory : forall {T} cap batch (h : list (list T)) draws (xt : amat T),
  0 <= cap < 2 ^ 31 -> Forall (fun v => lenZ v = m_rows xt) h -> m_cols xt <> [] ->
  batch < Z.min cap (lenZ h) -> 0 <= batch -> lenZ draws = batch ->
  Forall (fun k => 0 <= k < Z.min cap (lenZ h)) draws ->
  exists sampled, sampleMemory (fold_left append h (buffer_ctor cap batch)) draws xt =
    Ok (mkMat (m_rows xt) (sampled ++ m_cols xt)) /\
    Forall2 (fun k v => nthZ h k = Some v) draws sampled.
Proof. exact @c19_large. Qed.
Print Assumptions C19_samples_then_trajectory.
(** An empty predicted trajectory throws as soon as one state is stored. *)
Theorem C19_empty_trajectory_refuted : forall {T} cap batch (h : list (list T)) draws (xt : amat T),
  1 <= cap < 2 ^ 31 -> 0 <= batch -> h <> [] ->
  Forall (fun v => lenZ v = m_rows xt) h -> lenZ draws = batch ->
  Forall (fun k => 0 <= k < Z.min cap (lenZ h)) draws -> m_cols xt = [] ->
  sampleMemory (fold_left append h (buffer_ctor cap batch)) draws xt = Throw EArma.
Proof. exact @c19_empty_traj. Qed.
Print Assumptions C19_empty_trajectory_refuted.
Example C19_example :
  sampleMemory (fold_left append [[1]; [2]; [3]] (buffer_ctor 9 2)) [2; 0] (mkMat 1 [[7]; [8]])
    = Ok (mkMat 1 [[3]; [1]; [7]; [8]]) /\
  sampleMemory (fold_left append [[1]; [2]; [3]] (buffer_ctor 9 3)) [] (mkMat 1 [[7]; [8]])
    = Ok (mkMat 1 [[1]; [2]; [3]; [7]; [8]]) /\
  sampleMemory (fold_left append [[1]; [2]; [3]] (buffer_ctor 9 2)) [2; 0] (mkMat 1 []) = Throw EArma.
Proof. repeat split. Qed.
