(** Proofs of the statements of PropBuffer.v. *)
From Coq Require Import ZArith Lia List ZifyBool.
From Verif Require Import Outcome GridProofs BufferModel.
Import ListNotations.
Ltac Zify.zify_post_hook ::= idtac.
Local Open Scope Z_scope.

Section Buf.
Context {T : Type}.
Implicit Types (b : buffer T) (h : list (list T)) (xt : amat T).

(** The association list of a history. *)
Definition keyed h : list (Z * list T) := combine (zseq (length h)) h.

Lemma zseq_S n : zseq (S n) = zseq n ++ [Z.of_nat n].
Proof. unfold zseq. rewrite seq_S, map_app. reflexivity. Qed.
Lemma zseq_len n : length (zseq n) = n.
Proof. unfold zseq. rewrite map_length, seq_length. reflexivity. Qed.
Lemma keyed_app h x : keyed (h ++ [x]) = keyed h ++ [(Z.of_nat (length h), x)].
Proof.
  unfold keyed. rewrite app_length. cbn [length]. rewrite Nat.add_1_r, zseq_S.
  assert (E : forall (A B : Type) (l1 : list A) (l2 : list B) a c, length l1 = length l2 ->
      combine (l1 ++ [a]) (l2 ++ [c]) = combine l1 l2 ++ [(a, c)]).
  { induction l1 as [|p l1 IH]; intros [|q l2] a c H; try discriminate; [reflexivity|].
    cbn. rewrite IH; [reflexivity|]. injection H; auto. }
  apply E. apply zseq_len.
Qed.
Lemma keyed_len h : length (keyed h) = length h.
Proof. unfold keyed. rewrite combine_length, zseq_len. lia. Qed.

Lemma mem_at_app (m : list (Z * list T)) k v k' :
  mem_at (m ++ [(k, v)]) k' =
  match mem_at m k' with Ok w => Ok w | _ => if k =? k' then Ok v else Throw EOutOfRange end.
Proof.
  induction m as [|[a w] m IH]; cbn; [reflexivity|]. destruct (a =? k'); [reflexivity|exact IH].
Qed.
Lemma mem_at_throw (m : list (Z * list T)) k : (exists v, mem_at m k = Ok v) \/ mem_at m k = Throw EOutOfRange.
Proof.
  induction m as [|[a w] m IH]; cbn; [auto|]. destruct (a =? k); eauto.
Qed.
Lemma mem_at_keyed h : forall k, mem_at (keyed h) k =
  match nthZ h k with Some v => Ok v | None => Throw EOutOfRange end.
Proof.
  induction h as [|x h IH] using rev_ind; intros k.
  - cbn. unfold nthZ. destruct (k <? 0); [reflexivity|]. destruct (Z.to_nat k); reflexivity.
  - rewrite keyed_app, mem_at_app, IH. unfold nthZ.
    destruct (Z.ltb_spec k 0).
    + destruct (Z.eqb_spec (Z.of_nat (length h)) k); [lia|reflexivity].
    + destruct (Nat.lt_ge_cases (Z.to_nat k) (length h)) as [L|G].
      * rewrite nth_error_app1 by assumption.
        destruct (nth_error h (Z.to_nat k)) eqn:E; [reflexivity|].
        apply nth_error_None in E. lia.
      * rewrite nth_error_app2 by assumption.
        assert (E : nth_error h (Z.to_nat k) = None) by (apply nth_error_None; lia). rewrite E.
        destruct (Z.eqb_spec (Z.of_nat (length h)) k) as [<-|N].
        -- rewrite Nat2Z.id, Nat.sub_diag. reflexivity.
        -- destruct (Z.to_nat k - length h)%nat eqn:E2; [lia|]. cbn. destruct n; reflexivity.
Qed.

Lemma append_keyed cap batch h x : 0 <= cap <= 2 ^ 32 -> lenZ h <= cap ->
  append (mkBuffer cap batch (keyed h)) x =
  if lenZ h <? cap then mkBuffer cap batch (keyed (h ++ [x])) else mkBuffer cap batch (keyed h).
Proof.
  intros Hc Hl. unfold append. cbn [b_mem b_size b_batch]. unfold lenZ in *. rewrite keyed_len.
  destruct (Z.ltb_spec (Z.of_nat (length h)) cap); [|reflexivity].
  f_equal. unfold mem_emplace. rewrite u32_small by (unfold two32; lia).
  rewrite mem_at_keyed. unfold nthZ. destruct (Z.ltb_spec (Z.of_nat (length h)) 0); [lia|].
  rewrite Nat2Z.id. assert (E : nth_error h (length h) = None) by (apply nth_error_None; lia).
  rewrite E, keyed_app. reflexivity.
Qed.

Lemma c18_history cap batch h : 0 <= cap < 2 ^ 32 ->
  fold_left append h (buffer_ctor cap batch) = mkBuffer cap batch (keyed (firstn (Z.to_nat cap) h)).
Proof.
  intros Hc. induction h as [|x h IH] using rev_ind.
  - rewrite firstn_nil. reflexivity.
  - rewrite fold_left_app. cbn [fold_left]. rewrite IH.
    assert (L : lenZ (firstn (Z.to_nat cap) h) <= cap).
    { unfold lenZ. rewrite firstn_length. lia. }
    rewrite append_keyed by lia. rewrite firstn_app.
    unfold lenZ in *. rewrite firstn_length in *.
    destruct (Z.ltb_spec (Z.of_nat (Nat.min (Z.to_nat cap) (length h))) cap) as [G|G]; f_equal.
    + f_equal. rewrite !firstn_all2 by lia.
      destruct (Z.to_nat cap - length h)%nat as [|n] eqn:E; [lia|]. cbn. rewrite firstn_nil. reflexivity.
    + replace (Z.to_nat cap - length h)%nat with O by lia. cbn. rewrite app_nil_r. reflexivity.
Qed.

(** What is stored under each key. *)
Lemma c18_contents cap batch h k : 0 <= cap < 2 ^ 32 ->
  mem_at (b_mem (fold_left append h (buffer_ctor cap batch))) k =
  if k <? cap then match nthZ h k with Some v => Ok v | None => Throw EOutOfRange end else Throw EOutOfRange.
Proof.
  intros Hc. rewrite c18_history by assumption. cbn [b_mem]. rewrite mem_at_keyed. unfold nthZ.
  destruct (Z.ltb_spec k 0); [destruct (k <? cap); reflexivity|].
  destruct (Z.ltb_spec k cap).
  - assert (E : nth_error (firstn (Z.to_nat cap) h) (Z.to_nat k) = nth_error h (Z.to_nat k)); [|rewrite E; reflexivity].
    assert (L : (Z.to_nat k < Z.to_nat cap)%nat) by lia. revert L. generalize (Z.to_nat k), (Z.to_nat cap).
    clear. intros k n. revert h k. induction n as [|n IH]; intros [|x h] [|k] L; cbn; try lia; auto.
    apply IH. lia.
  - assert (E : nth_error (firstn (Z.to_nat cap) h) (Z.to_nat k) = None); [|rewrite E; reflexivity].
    apply nth_error_None. rewrite firstn_length. lia.
Qed.
Lemma c18_size cap batch h : 0 <= cap < 2 ^ 32 ->
  lenZ (b_mem (fold_left append h (buffer_ctor cap batch))) = Z.min cap (lenZ h).
Proof.
  intros Hc. rewrite c18_history by assumption. cbn [b_mem]. unfold lenZ.
  rewrite keyed_len, firstn_length. lia.
Qed.

(** Sampling *)
Lemma fetch_ok (m : list (Z * list T)) rows keys vals :
  Forall2 (fun k v => mem_at m k = Ok v /\ lenZ v = rows) keys vals -> fetch m rows keys = Ok vals.
Proof.
  induction 1 as [|k v ks vs [H1 H2] HF IH]; [reflexivity|].
  cbn [fetch]. rewrite H1. cbn [bind]. unfold check_col. rewrite H2, Z.eqb_refl. cbn [bind].
  rewrite IH. reflexivity.
Qed.

Definition well_shaped xt : Prop := Forall (fun v => lenZ v = m_rows xt) (m_cols xt).

Lemma seq_all h rows : Forall (fun v => lenZ v = rows) h ->
  fetch (keyed h) rows (zseq (length h)) = Ok h.
Proof.
  intros Hf. apply fetch_ok.
  assert (G : forall n, (n <= length h)%nat ->
    Forall2 (fun k v => mem_at (keyed h) k = Ok v /\ lenZ v = rows) (zseq n) (firstn n h)).
  { induction n as [|n IH]; intros L; [constructor|].
    destruct (nth_error h n) as [v|] eqn:E; [|apply nth_error_None in E; lia].
    assert (F : firstn (S n) h = firstn n h ++ [v]).
    { clear -E. revert h E. induction n as [|n IH]; intros [|y h] E; try discriminate.
      - injection E as ->. reflexivity.
      - cbn. f_equal. apply IH. exact E. }
    rewrite F, zseq_S. apply Forall2_app; [apply IH; lia|]. constructor; [|constructor].
    rewrite mem_at_keyed. unfold nthZ. destruct (Z.ltb_spec (Z.of_nat n) 0); [lia|].
    rewrite Nat2Z.id, E. split; [reflexivity|]. rewrite Forall_forall in Hf. apply Hf.
    apply nth_error_In in E. exact E. }
  specialize (G (length h) (le_n _)). rewrite firstn_all in G. exact G.
Qed.

Lemma c19_small cap batch h draws xt : 0 <= cap < 2 ^ 32 ->
  Forall (fun v => lenZ v = m_rows xt) h -> m_cols xt <> [] ->
  Z.min cap (lenZ h) <= batch ->
  sampleMemory (fold_left append h (buffer_ctor cap batch)) draws xt =
  Ok (mkMat (m_rows xt) (firstn (Z.to_nat cap) h ++ m_cols xt)).
Proof.
  intros Hc Hf Hx Hb. pose proof (c18_size cap batch h Hc) as Sz.
  rewrite c18_history in * by assumption. unfold sampleMemory. cbn [b_mem b_batch] in *.
  set (s := firstn (Z.to_nat cap) h) in *.
  destruct (keyed s) as [|p l] eqn:E.
  - assert (length (keyed s) = O) as Z0 by (rewrite E; reflexivity). rewrite keyed_len in Z0.
    destruct s; [|discriminate]. destruct xt; reflexivity.
  - rewrite <- E in *. destruct (Z.leb_spec (lenZ (keyed s)) batch); [|lia].
    rewrite keyed_len, seq_all.
    + cbn [bind]. unfold copy_tail. destruct (m_cols xt); [contradiction|reflexivity].
    + rewrite Forall_forall in *. intros v Hv. apply Hf. unfold s in Hv.
      rewrite <- (firstn_skipn (Z.to_nat cap) h). apply in_or_app. left. exact Hv.
Qed.

Lemma c19_large cap batch h draws xt : 0 <= cap < 2 ^ 31 ->
  Forall (fun v => lenZ v = m_rows xt) h -> m_cols xt <> [] ->
  batch < Z.min cap (lenZ h) -> 0 <= batch -> lenZ draws = batch ->
  Forall (fun k => 0 <= k < Z.min cap (lenZ h)) draws ->
  exists sampled, sampleMemory (fold_left append h (buffer_ctor cap batch)) draws xt =
    Ok (mkMat (m_rows xt) (sampled ++ m_cols xt)) /\
    Forall2 (fun k v => nthZ h k = Some v) draws sampled.
Proof.
  intros Hc Hf Hx Hb Hb0 Hd Hr. pose proof (c18_size cap batch h ltac:(lia)) as Sz.
  assert (V : forall k, 0 <= k < Z.min cap (lenZ h) -> exists v, nthZ h k = Some v /\ lenZ v = m_rows xt /\
              mem_at (keyed (firstn (Z.to_nat cap) h)) (u32 k) = Ok v).
  { intros k Hk. destruct (nthZ h k) as [v|] eqn:E.
    - exists v. split; [reflexivity|]. split.
      + rewrite Forall_forall in Hf. apply Hf. unfold nthZ in E. destruct (k <? 0); [discriminate|].
        eapply nth_error_In; eassumption.
      + pose proof (c18_contents cap batch h k ltac:(lia)) as C. rewrite c18_history in C by lia. cbn [b_mem] in C.
        rewrite u32_small by (unfold two32; lia). rewrite C, E. destruct (Z.ltb_spec k cap); [reflexivity|lia].
    - apply nthZ_None_iff in E. lia. }
  rewrite c18_history in * by lia. unfold sampleMemory. cbn [b_mem b_batch] in *.
  set (s := firstn (Z.to_nat cap) h) in *.
  assert (X : exists sampled, Forall2 (fun k v => nthZ h k = Some v) draws sampled /\
             Forall2 (fun k v => mem_at (keyed s) k = Ok v /\ lenZ v = m_rows xt) (map u32 draws) sampled).
  { clear Hd. induction Hr as [|k ks Hk HF IH]; [exists []; split; constructor|].
    destruct IH as (vs & I1 & I2). destruct (V k Hk) as (v & V1 & V2 & V3).
    exists (v :: vs). split; constructor; auto. }
  destruct X as (vs & X1 & X2). exists vs. split; [|exact X1].
  destruct (keyed s) as [|p l] eqn:E; [cbn in Sz; unfold lenZ in *; cbn in Sz; lia|]. rewrite <- E in *.
  destruct (Z.leb_spec (lenZ (keyed s)) batch); [lia|].
  rewrite s32_small by (unfold two31; lia).
  destruct (Z.ltb_spec (lenZ (keyed s) - 1) 0); [lia|].
  rewrite (fetch_ok _ _ _ _ X2). cbn [bind]. unfold copy_tail. destruct (m_cols xt); [contradiction|reflexivity].
Qed.

(** An empty trajectory with a non-empty memory is an Armadillo error. *)
Lemma c19_empty_traj cap batch h draws xt : 1 <= cap < 2 ^ 31 -> 0 <= batch -> h <> [] ->
  Forall (fun v => lenZ v = m_rows xt) h -> lenZ draws = batch ->
  Forall (fun k => 0 <= k < Z.min cap (lenZ h)) draws -> m_cols xt = [] ->
  sampleMemory (fold_left append h (buffer_ctor cap batch)) draws xt = Throw EArma.
Proof.
  intros Hc Hb Hh Hf Hd Hr Hx. set (xt' := mkMat (m_rows xt) [@nil T]).
  assert (Nx : m_cols xt' <> []) by discriminate.
  destruct (Z_le_gt_dec (Z.min cap (lenZ h)) batch) as [L|G].
  - pose proof (c19_small cap batch h draws xt' ltac:(lia) Hf Nx L) as A.
    unfold sampleMemory in *. cbn [m_rows xt'] in *.
    rewrite c18_history in * by lia. cbn [b_mem b_batch] in *.
    destruct h as [|x h]; [contradiction|].
    assert (E : firstn (Z.to_nat cap) (x :: h) = x :: firstn (Z.to_nat cap - 1) h).
    { destruct (Z.to_nat cap) eqn:E; [lia|]. cbn. rewrite Nat.sub_0_r. reflexivity. }
    rewrite E in *. destruct (keyed (x :: _)) as [|p l] eqn:K; [exfalso; apply (f_equal (@length _)) in K; rewrite keyed_len in K; cbn in K; lia|]. rewrite <- K in *.
    destruct (lenZ (keyed _) <=? batch).
    + destruct (fetch _ _ _); cbn [bind] in *; try discriminate. unfold copy_tail. rewrite Hx. reflexivity.
    + destruct (_ <? 0); [discriminate|].
      destruct (fetch _ _ _); cbn [bind] in *; try discriminate. unfold copy_tail. rewrite Hx. reflexivity.
  - destruct (c19_large cap batch h draws xt' ltac:(lia) Hf Nx ltac:(lia) Hb Hd Hr) as (vs & A & _).
    unfold sampleMemory in *. cbn [m_rows xt'] in *.
    rewrite c18_history in * by lia. cbn [b_mem b_batch] in *.
    destruct (keyed _) as [|p l] eqn:K; [|rewrite <- K in *].
    + exfalso.
      assert (length (keyed (firstn (Z.to_nat cap) h)) = O) as KK by (rewrite K; reflexivity).
      rewrite keyed_len, firstn_length in KK. destruct h; [contradiction|]. cbn in KK. lia.
    + destruct (lenZ (keyed _) <=? batch).
      * destruct (fetch _ _ _); cbn [bind] in *; try discriminate. unfold copy_tail. rewrite Hx. reflexivity.
      * destruct (_ <? 0); [discriminate|].
        destruct (fetch _ _ _); cbn [bind] in *; try discriminate. unfold copy_tail. rewrite Hx. reflexivity.
Qed.
End Buf.
