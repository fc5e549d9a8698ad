(** Proofs about the members shared by the callbacks and the loop. *)
From Coq Require Import Reals ZArith List Bool Lia.
From Verif Require Import Outcome Num GridModel CollisionModel NumericsModel BufferModel DwaModel ErgodicModel ExplorationModel
  Spec SpecExploration SpecShared ExplorationProofs.
Import ListNotations.

Section Any.
Context {T : Type} {NT : Num T}.
Implicit Types (s : shared T) (ms pre : list (message T)).

(** [s] with [k] assignments of the callback for [m] done. *)
Definition todo s l := mkShared (sh_grid s) (sh_recv s) (sh_vb s) l.
Fixpoint writes k s : shared T :=
  match k with O => s | S k => match sh_todo s with [] => s | w :: rest => writes k (do_write w rest s) end end.
Definition at_ (m : message T) k s := writes k (todo s (writes_of m)).
Definition finish s m : shared T := at_ m 9 s.
Definition finished ms s := fold_left finish ms s.
Lemma writes_S k s w rest : sh_todo (writes k s) = w :: rest -> do_write w rest (writes k s) = writes (S k) s.
Proof.
  revert s. induction k as [|k IH]; intros s E; cbn [writes] in *; [rewrite E; reflexivity|].
  destruct (sh_todo s) as [|v r] eqn:Q; [congruence|]. apply IH, E.
Qed.
Lemma finish_todo m s : sh_todo (finish s m) = [].
Proof. destruct m; reflexivity. Qed.
Lemma at_done m s k : sh_todo (at_ m k s) = [] -> at_ m k s = finish s m.
Proof. destruct m; do 10 (destruct k; [try discriminate; reflexivity|]); cbn; try reflexivity; destruct k; reflexivity. Qed.
Lemma at_le m s k : exists j, at_ m k s = at_ m j s /\ (j <= match m with MMap _ => 9 | MOdom _ => 3 end)%nat.
Proof.
  destruct (Nat.le_gt_cases k (match m with MMap _ => 9 | MOdom _ => 3 end)) as [L|L]; [exists k; split; [reflexivity|exact L]|].
  exists (match m with MMap _ => 9 | MOdom _ => 3 end)%nat. split; [|apply Nat.le_refl].
  rewrite at_done; [destruct m; reflexivity|]. destruct m; do 10 (destruct k; [try lia; try reflexivity|]); cbn; try reflexivity; destruct k; reflexivity.
Qed.
Lemma from_at ms s s' : callbacks ms s s' -> forall m k s0, s = at_ m k s0 ->
  exists pre m' k', m :: ms = pre ++ [m'] /\ s' = at_ m' k' (finished pre s0).
Proof.
  induction 1 as [s|m' ms s s' E C IH|w rest ms s s' E C IH]; intros m k s0 Q.
  - exists [], m, k. split; [reflexivity|exact Q].
  - subst s. pose proof (at_done _ _ _ E) as D. rewrite D in *.
    destruct (IH m' 0%nat (finish s0 m) eq_refl) as (pre & m2 & k2 & A & B).
    exists (m :: pre), m2, k2. split; [rewrite A; reflexivity|exact B].
  - subst s. apply (IH m (S k) s0). unfold at_ in *. apply writes_S, E.
Qed.
Lemma finished_settled ms : forall s, sh_todo s = [] -> sh_todo (finished ms s) = [] /\ settled ms s (finished ms s).
Proof.
  induction ms as [|m ms IH]; intros s E; [split; [exact E|]; unfold settled; cbn; rewrite orb_false_r; repeat split|].
  destruct (IH (finish s m) (finish_todo m s)) as (A & B). split; [exact A|]. unfold settled in *. destruct B as (B1 & B2 & B3).
  change (finished (m :: ms) s) with (finished ms (finish s m)). rewrite B1, B2, B3. destruct m as [m|v]; cbn; (split; [reflexivity|]).
  - split; [reflexivity|]. rewrite orb_true_r. reflexivity.
  - split; [destruct v; reflexivity|reflexivity].
Qed.
Lemma settled_snoc_finish pre m s t : settled pre s t -> settled (pre ++ [m]) s (finish t m).
Proof.
  intros (A & B & C). unfold settled, last_map, last_odom, any_map. rewrite !fold_left_app, existsb_app. cbn [fold_left existsb].
  fold (last_map (sh_grid s) pre) (last_odom (sh_vb s) pre) (any_map pre). rewrite <- A, <- B, orb_assoc, <- C.
  destruct m as [m|v]; cbn; (split; [reflexivity|]); [|split; [destruct v; reflexivity|rewrite orb_false_r; reflexivity]].
  split; [reflexivity|]. rewrite orb_true_r. reflexivity.
Qed.
Lemma c84_callbacks ms s s' : sh_todo s = [] -> callbacks ms s s' -> consistent ms s s'.
Proof.
  intros E C. inversion C as [|m ms' ? ? E' C'|w rest ? ? ? E' C']; subst; [|clear C|congruence].
  - left. split; [exact E|]. unfold settled. cbn. rewrite orb_false_r. repeat split.
  - destruct (from_at _ _ _ C' m 0%nat s eq_refl) as (pre & m' & k & A & B). rewrite A.
    destruct (finished_settled pre s E) as (F & G). destruct (at_le m' (finished pre s) k) as (j & Bj & L). rewrite Bj in B. clear Bj k.
    destruct (sh_todo s') as [|w r] eqn:Q.
    + left. split; [exact Q|]. rewrite B in Q. rewrite B, (at_done _ _ _ Q). apply settled_snoc_finish, G.
    + right. exists pre, m'. split; [rewrite Q; discriminate|]. split; [reflexivity|]. destruct G as (G1 & G2 & G3). subst s'. rewrite <- G1, <- G2, <- G3.
      set (t := finished pre s) in *. clearbody t.
      destruct m' as [m'|v].
      * destruct (Nat.eq_dec j 9) as [->|N]; [discriminate|]. destruct t as [[] rc [] td].
        split; [|exists j; split; [lia|]]; do 9 (destruct j as [|j]; [try split; reflexivity|]); exfalso; lia.
      * destruct (Nat.eq_dec j 3) as [->|N]; [discriminate|]. destruct t as [[] rc [] td].
        split; [|exists j; split; [lia|]]; do 3 (destruct j as [|j]; [try split; reflexivity|]); exfalso; lia.
Qed.
Lemma cb_app a s1 s2 : callbacks a s1 s2 -> forall b (s3 : shared T), callbacks b s2 s3 -> callbacks (a ++ b) s1 s3.
Proof.
  induction 1 as [s|m ms s s' E C IH|w rest ms s s' E C IH]; intros b s3 H; [exact H| |].
  - apply (cb_start m (ms ++ b)); [exact E|]. apply IH, H.
  - apply (cb_write w rest); [exact E|]. apply IH, H.
Qed.
Lemma exec_reads n s l evs s' l' : exec n s l evs s' l' ->
  callbacks (messages evs) s s' /\ forall e r, In e evs -> In r (reads (ev_at e)) -> exists ms rest, messages evs = ms ++ rest /\ callbacks ms s r.
Proof.
  induction 1 as [s l|s l e s1 evs s' l' I P X IH]; [split; [constructor|intros e r []]|].
  destruct I as [s lk draws t early l1 l2 l3 l4 l5 l0 l0' s1 out C0 C1 C2 C3 C4 C5 B]. destruct IH as (IH1 & IH2).
  assert (D1 := cb_app _ _ _ C0 _ _ C1). assert (D2 := cb_app _ _ _ D1 _ _ C2). assert (D3 := cb_app _ _ _ D2 _ _ C3).
  assert (D4 := cb_app _ _ _ D3 _ _ C4). assert (D5 := cb_app _ _ _ D4 _ _ C5). rewrite <- !app_assoc in *.
  unfold messages. cbn [flat_map ev_early ev_late]. fold (messages evs). split.
  - rewrite <- !app_assoc in *. assert (D6 := cb_app _ _ _ D5 _ _ IH1). rewrite <- !app_assoc in D6. exact D6.
  - intros e r [<-|Ie] Ir.
    + cbn [ev_at] in Ir. unfold reads in Ir. cbn [In] in Ir. destruct Ir as [<-|[<-|[<-|[<-|[<-|[]]]]]].
      * exists early. eexists. split; [|exact C0]. rewrite <- !app_assoc. reflexivity.
      * exists (early ++ l1). eexists. split; [|exact D1]. rewrite <- !app_assoc. reflexivity.
      * exists (early ++ l1 ++ l2). eexists. split; [|exact D2]. rewrite <- !app_assoc. reflexivity.
      * exists (early ++ l1 ++ l2 ++ l3). eexists. split; [|exact D3]. rewrite <- !app_assoc. reflexivity.
      * exists (early ++ l1 ++ l2 ++ l3 ++ l4). eexists. split; [|exact D4]. rewrite <- !app_assoc. reflexivity.
    + destruct (IH2 e r Ie Ir) as (ms & rest & A & H). rewrite A. exists (early ++ l1 ++ l2 ++ l3 ++ l4 ++ l5 ++ ms), rest.
      split; [rewrite <- !app_assoc; reflexivity|]. assert (D6 := cb_app _ _ _ D5 _ _ H). rewrite <- !app_assoc in D6. exact D6.
Qed.
Lemma c84_exec n l evs s' l' e r : exec n shared_init l evs s' l' -> In e evs -> In r (reads (ev_at e)) ->
  exists ms rest, messages evs = ms ++ rest /\ consistent ms shared_init r.
Proof.
  intros X I R. destruct (proj2 (exec_reads _ _ _ _ _ _ X) e r I R) as (ms & rest & A & C). exists ms, rest. split; [exact A|].
  apply c84_callbacks; [reflexivity|exact C].
Qed.
End Any.

(** ** size() and the default map *)
Lemma size_cells {T} {NT : Num T} (g : grid T) : dims g -> (cells g < 2 ^ 32)%Z -> grid_size g = cells g.
Proof. unfold dims, is_u32, cells, grid_size, u32, two32. intros (A & B) C. apply Z.mod_small. change 4294967296%Z with (2 ^ 32)%Z. nia. Qed.
Lemma size_wraps : exists g : grid R, dims g /\ cells g = (2 ^ 32)%Z /\ grid_size g = 0%Z.
Proof.
  exists (mkGrid 65536 65536 1%R 0%R 0%R 65536%R 65536%R []). unfold dims, is_u32, cells, grid_size. cbn [g_xsize g_ysize].
  split; [lia|]. split; reflexivity.
Qed.
Lemma default_empty {T} {NT : Num T} : let g := @grid_default T NT in
  g_xsize g = 0%Z /\ g_ysize g = 0%Z /\ grid_size g = 0%Z /\ g_data g = [] /\ [g_res g; g_xmin g; g_ymin g; g_xmax g; g_ymax g] = repeat n0 5.
Proof. repeat split. Qed.
