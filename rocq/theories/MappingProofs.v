(** Effects of the map update on single cells, for any arithmetic. *)
From Coq Require Import ZArith List Lia ZifyBool.
From Verif Require Import Outcome Num GridModel GridProofs NumericsModel MappingModel Spec SpecMapping RayProofs.
Import ListNotations.
Local Open Scope Z_scope.
Ltac Zify.zify_post_hook ::= idtac.

Section Mapping.
Context {T : Type} {NT : Num T}.
Implicit Types (g : grid T) (m : mapper T).

Lemma set_nth_length l : forall k v, length (set_nth l k v) = length l.
Proof. induction l as [|a l IH]; intros [|k] v; cbn; auto. Qed.
Lemma set_nth_same l : forall k v, (k < length l)%nat -> nth_error (set_nth l k v) k = Some v.
Proof. induction l as [|a l IH]; intros [|k] v H; cbn in *; try lia; [reflexivity|]. apply IH. lia. Qed.
Lemma set_nth_other l : forall k k' v, k <> k' -> nth_error (set_nth l k v) k' = nth_error l k'.
Proof. induction l as [|a l IH]; intros [|k] [|k'] v H; cbn; try reflexivity; try congruence. apply IH. congruence. Qed.

Lemma frame_refl g : same_frame g g.
Proof. repeat split. Qed.
Lemma frame_trans g1 g2 g3 : same_frame g1 g2 -> same_frame g2 g3 -> same_frame g1 g3.
Proof. unfold same_frame. intuition congruence. Qed.
Lemma frame_mappable g g' : same_frame g g' -> mappable g -> mappable g'.
Proof.
  unfold same_frame, mappable, sized, cells, lenZ. intros (E1 & E2 & _ & _ & _ & _ & _ & E3).
  rewrite E1, E2, E3. auto.
Qed.
Lemma frame_in_grid g g' i j : same_frame g g' -> (in_grid g' i j <-> in_grid g i j).
Proof. unfold same_frame, in_grid. intros (E1 & E2 & _). rewrite E1, E2. reflexivity. Qed.
Lemma frame_world g g' x y : same_frame g g' -> world2Grid g' x y = world2Grid g x y.
Proof. intros (E1 & E2 & E3 & E4 & E5 & _). unfold world2Grid. rewrite E1, E2, E3, E4, E5. reflexivity. Qed.
Lemma frame_bounds g g' i j : same_frame g g' -> gridBounds g' i j = gridBounds g i j.
Proof. intros (E1 & E2 & _). unfold gridBounds. rewrite E1, E2. reflexivity. Qed.

Lemma bounds_in g i j : mappable g -> 0 <= i < two32 -> 0 <= j < two32 ->
  (gridBounds g i j = true <-> in_grid g i j).
Proof.
  intros ((X1 & X2) & (Y1 & Y2) & _) Hi Hj. change (2 ^ 30) with 1073741824 in *.
  rewrite bounds_nonempty by (unfold two32; lia). unfold in_grid. lia.
Qed.

Lemma cell_exists g i j : mappable g -> in_grid g i j -> exists v, cell_is g i j v.
Proof.
  intros (HX & HY & HC & HS) [Hi Hj]. unfold cell_is.
  destruct (nth_error (g_data g) (Z.to_nat (i * g_xsize g + j))) eqn:E; [eauto|exfalso].
  apply nth_error_None in E. unfold sized, lenZ, cells in *. nia.
Qed.
Lemma cell_fun g i j v v' : cell_is g i j v -> cell_is g i j v' -> v = v'.
Proof. unfold cell_is. congruence. Qed.
Lemma idx_inj g i j i' j' : in_grid g i j -> in_grid g i' j' ->
  i * g_xsize g + j = i' * g_xsize g + j' -> i = i' /\ j = j'.
Proof. unfold in_grid. intros. assert (i = i') by nia. subst. lia. Qed.

(** The map with one cell replaced. *)
Definition set_cell g (i j v : Z) : grid T := set_data g (set_nth (g_data g) (Z.to_nat (i * g_xsize g + j)) v).
Lemma set_cell_frame g i j v : same_frame g (set_cell g i j v).
Proof. unfold same_frame, set_cell, set_data; cbn. rewrite set_nth_length. tauto. Qed.
Lemma set_cell_same g i j v : mappable g -> in_grid g i j -> cell_is (set_cell g i j v) i j v.
Proof.
  intros Hm Hi. destruct (cell_exists g i j Hm Hi) as [w Hw]. unfold cell_is, set_cell, set_data in *; cbn.
  apply set_nth_same. apply nth_error_Some. congruence.
Qed.
Lemma set_cell_other g i j v i' j' w : in_grid g i j -> in_grid g i' j' -> (i, j) <> (i', j') ->
  cell_is g i' j' w -> cell_is (set_cell g i j v) i' j' w.
Proof.
  intros Hi Hi' N Hw. unfold cell_is, set_cell, set_data in *; cbn. rewrite set_nth_other; [exact Hw|].
  intros E. apply N. destruct (idx_inj g i j i' j' Hi Hi') as [-> ->]; [|reflexivity].
  unfold in_grid in *. nia.
Qed.

Lemma updateCell_in m g x y log v : mappable g -> in_grid g y x -> cell_is g y x v ->
  updateCell m g x y log = let* v' := fuse m log v in Ok (set_cell g y x v').
Proof.
  intros Hm Hi Hv. pose proof Hm as (HX & HY & HC & HS). pose proof Hi as [I J]. unfold cells in HC. change (2 ^ 32) with two32 in HC.
  assert (B : 2 ^ 30 <= two32) by (vm_compute; discriminate).
  unfold updateCell. rewrite !u32_small by lia.
  destruct (row_major_in g y x I J HC) as [E R]. rewrite E.
  unfold sized, cells in HS.
  destruct (getCellIdx_in g (y * g_xsize g + x) ltac:(lia) HS R) as (w & W1 & W2).
  rewrite W2. cbn [bind]. unfold nthZ in W1. destruct (Z.ltb_spec (y * g_xsize g + x) 0); [lia|].
  unfold cell_is in Hv. rewrite Hv in W1. injection W1 as <-. unfold fuse, cell_val.
  destruct (to_int8 _) as [v'| | |]; cbn [bind]; try reflexivity.
  replace ((0 <=? y * g_xsize g + x) && (y * g_xsize g + x <? lenZ (g_data g))) with true by lia. reflexivity.
Qed.

(** Effect of observing a list of distinct cells free. *)
Lemma free_all_effect m l : forall g g', mappable g -> NoDup l -> (forall x y, In (x, y) l -> in_grid g y x) ->
  free_all m g l = Ok g' ->
  same_frame g g' /\
  forall i j v, in_grid g i j -> cell_is g i j v ->
    (In (j, i) l -> exists v', fuse m (mp_free m) v = Ok v' /\ cell_is g' i j v') /\
    (~ In (j, i) l -> cell_is g' i j v).
Proof.
  induction l as [|[x y] l IH]; intros g g' Hm Hn Hl H.
  - cbn in H. injection H as <-. split; [apply frame_refl|]. cbn. tauto.
  - cbn [free_all] in H. inversion Hn as [|? ? Nx Nl]; subst.
    assert (Hin : in_grid g y x) by (apply Hl; left; reflexivity).
    destruct (cell_exists g y x Hm Hin) as [w Hw]. rewrite (updateCell_in m g x y _ w Hm Hin Hw) in H.
    destruct (fuse m (mp_free m) w) as [w'| | |] eqn:F; cbn [bind] in H; try discriminate.
    pose proof (set_cell_frame g y x w') as Fr.
    destruct (IH (set_cell g y x w') g') as [Fr' Eff]; auto.
    { apply (frame_mappable g); assumption. }
    { intros a b Hab. apply (frame_in_grid g _ b a Fr). apply Hl. right. exact Hab. }
    split; [eapply frame_trans; eassumption|].
    intros i j v Hij Hv. cbn [In].
    assert (Hij' : in_grid (set_cell g y x w') i j) by (apply (frame_in_grid g _ i j Fr); exact Hij).
    assert (D : (x, y) = (j, i) \/ (x, y) <> (j, i)) by (destruct (Z.eq_dec x j), (Z.eq_dec y i); subst; auto; right; congruence).
    destruct D as [E|N].
    + injection E as -> ->. assert (v = w) by (eapply cell_fun; eassumption). subst w.
      destruct (Eff i j w' Hij') as [_ Eff2]; [apply set_cell_same; assumption|].
      split; [intros _; exists w'; auto|intros C; tauto].
    + destruct (Eff i j v Hij') as [Eff1 Eff2]; [apply set_cell_other; auto; congruence|].
      split; [intros [C|C]; [contradiction|auto]|intros C; apply Eff2; tauto].
Qed.

(** Known cells stay known, and every observation succeeds. *)
Definition fuse_total m : Prop := forall c, 0 <= c <= 100 ->
  (exists c', fuse m (mp_free m) c = Ok c' /\ 0 <= c' <= 100) /\
  (exists c', fuse m (mp_occ m) c = Ok c' /\ 0 <= c' <= 100).

Lemma known_cell g i j v : known g -> cell_is g i j v -> 0 <= v <= 100.
Proof. unfold known, cell_is. rewrite Forall_forall. intros H E. apply H. eapply nth_error_In. exact E. Qed.
Lemma set_nth_Forall (P : Z -> Prop) l : forall k v, Forall P l -> P v -> Forall P (set_nth l k v).
Proof. induction l as [|a l IH]; intros [|k] v H Hv; cbn; auto; inversion H; subst; constructor; auto. Qed.
Lemma set_cell_known g i j v : known g -> 0 <= v <= 100 -> known (set_cell g i j v).
Proof. intros H Hv. apply set_nth_Forall; assumption. Qed.

Lemma updateCell_known m g x y log : mappable g -> known g -> in_grid g y x ->
  (forall c, 0 <= c <= 100 -> exists c', fuse m log c = Ok c' /\ 0 <= c' <= 100) ->
  exists g', updateCell m g x y log = Ok g' /\ known g' /\ same_frame g g'.
Proof.
  intros Hm Hk Hi Hf. destruct (cell_exists g y x Hm Hi) as [w Hw].
  rewrite (updateCell_in m g x y _ w Hm Hi Hw).
  destruct (Hf w (known_cell g y x w Hk Hw)) as (c' & E & R). rewrite E. cbn [bind].
  eexists. split; [reflexivity|]. split; [apply set_cell_known; assumption|apply set_cell_frame].
Qed.
Lemma free_all_known m l : fuse_total m -> forall g, mappable g -> known g -> (forall x y, In (x, y) l -> in_grid g y x) ->
  exists g', free_all m g l = Ok g' /\ known g' /\ same_frame g g'.
Proof.
  intros Hf. induction l as [|[x y] l IH]; intros g Hm Hk Hl.
  - exists g. split; [reflexivity|]. split; [exact Hk|apply frame_refl].
  - cbn [free_all]. destruct (updateCell_known m g x y (mp_free m) Hm Hk) as (g1 & E & K & Fr).
    { apply Hl. left. reflexivity. }
    { intros c Hc. apply (proj1 (Hf c Hc)). }
    rewrite E. cbn [bind]. destruct (IH g1) as (g2 & E2 & K2 & Fr2); auto.
    { apply (frame_mappable g); assumption. }
    { intros a b H. apply (frame_in_grid g _ b a Fr). apply Hl. right. exact H. }
    exists g2. split; [exact E2|]. split; [exact K2|]. eapply frame_trans; eassumption.
Qed.

(** ** Rays *)
Lemma in_grid_coord g i j : mappable g -> in_grid g i j -> coord i /\ coord j /\ s32 i = i /\ s32 j = j.
Proof.
  intros (HX & HY & _) [Hi Hj]. unfold coord. split; [lia|]. split; [lia|].
  assert (B : 2 ^ 30 <= two31) by (vm_compute; discriminate).
  split; apply s32_small; lia.
Qed.
Lemma ray_in_grid g x0 y0 x1 y1 : in_grid g y0 x0 -> in_grid g y1 x1 ->
  forall x y, In (x, y) (ray_cells x0 y0 x1 y1) -> in_grid g y x.
Proof.
  intros [H1 H2] [H3 H4] x y H. apply ray_cells_on_ray in H. apply on_ray_box in H. unfold in_grid. lia.
Qed.

Lemma ray_effect m g g' x0 y0 x1 y1 : mappable g -> in_grid g y0 x0 -> in_grid g y1 x1 ->
  rayTrace m g x0 y0 x1 y1 = Ok g' ->
  same_frame g g' /\
  forall i j v, in_grid g i j -> cell_is g i j v ->
    (on_ray x0 y0 x1 y1 j i -> exists v', fuse m (mp_free m) v = Ok v' /\ cell_is g' i j v') /\
    (~ on_ray x0 y0 x1 y1 j i -> cell_is g' i j v).
Proof.
  intros Hm H0 H1 H.
  destruct (in_grid_coord g y0 x0 Hm H0) as (C1 & C2 & _). destruct (in_grid_coord g y1 x1 Hm H1) as (C3 & C4 & _).
  rewrite rayTrace_cells in H by assumption.
  destruct (free_all_effect m _ g g' Hm (ray_nodup _ _ _ _) (ray_in_grid g _ _ _ _ H0 H1) H) as [Fr E].
  split; [exact Fr|]. intros i j v Hi Hv. destruct (E i j v Hi Hv) as [E1 E2].
  rewrite ray_cells_on_ray in E1, E2. auto.
Qed.

(** One beam that ends in the cell (ei, ej), seen from the robot cell (ri, rj). *)
Definition sweep m g (ri rj ei ej : Z) : res (grid T) :=
  let* g := rayTrace m g rj ri ej ei in updateCell m g ej ei (mp_occ m).
Lemma on_ray_dec x0 y0 x1 y1 x y : on_ray x0 y0 x1 y1 x y \/ ~ on_ray x0 y0 x1 y1 x y.
Proof.
  rewrite <- ray_cells_on_ray.
  destruct (in_dec (fun a b : Z * Z => ltac:(decide equality; apply Z.eq_dec)) (x, y) (ray_cells x0 y0 x1 y1)); auto.
Qed.

Lemma sweep_effect m g g' ri rj ei ej : mappable g -> in_grid g ri rj -> in_grid g ei ej ->
  sweep m g ri rj ei ej = Ok g' ->
  same_frame g g' /\
  forall i j v, in_grid g i j -> cell_is g i j v ->
    exists v', seen_by m ri rj i j (Some (ei, ej)) v v' /\ cell_is g' i j v'.
Proof.
  intros Hm Hr He H. unfold sweep in H.
  destruct (rayTrace m g rj ri ej ei) as [g1| | |] eqn:E1; cbn [bind] in H; try discriminate.
  destruct (ray_effect m g g1 rj ri ej ei Hm Hr He E1) as [Fr Eff].
  assert (Hm1 : mappable g1) by (apply (frame_mappable g); assumption).
  assert (He1 : in_grid g1 ei ej) by (apply (frame_in_grid g); assumption).
  destruct (cell_exists g1 ei ej Hm1 He1) as [w Hw]. rewrite (updateCell_in m g1 ej ei _ w Hm1 He1 Hw) in H.
  destruct (fuse m (mp_occ m) w) as [w'| | |] eqn:F; cbn [bind] in H; try discriminate. injection H as <-.
  split; [eapply frame_trans; [exact Fr|apply set_cell_frame]|].
  intros i j v Hij Hv.
  assert (Hij1 : in_grid g1 i j) by (apply (frame_in_grid g); assumption).
  destruct (Eff i j v Hij Hv) as [A B].
  assert (D : (i, j) = (ei, ej) \/ (i, j) <> (ei, ej)) by (destruct (Z.eq_dec i ei), (Z.eq_dec j ej); subst; auto; right; congruence).
  destruct D as [E|N].
  - injection E as -> ->. assert (NR : ~ on_ray rj ri ej ei ej ei).
    { intros C. apply on_ray_box in C. tauto. }
    assert (v = w) by (eapply cell_fun; [apply B; exact NR|exact Hw]). subst w.
    exists w'. split; [right; left; auto|]. apply set_cell_same; assumption.
  - destruct (on_ray_dec rj ri ej ei j i) as [O|O].
    + destruct (A O) as (v' & F1 & F2). exists v'. split; [left; auto|].
      apply set_cell_other; auto; congruence.
    + exists v. split; [right; right; auto|]. apply set_cell_other; auto; congruence.
Qed.
Lemma sweep_known m g ri rj ei ej : fuse_total m -> mappable g -> known g -> in_grid g ri rj -> in_grid g ei ej ->
  exists g', sweep m g ri rj ei ej = Ok g' /\ known g' /\ same_frame g g'.
Proof.
  intros Hf Hm Hk Hr He. unfold sweep.
  destruct (in_grid_coord g ri rj Hm Hr) as (C1 & C2 & _). destruct (in_grid_coord g ei ej Hm He) as (C3 & C4 & _).
  rewrite rayTrace_cells by assumption.
  destruct (free_all_known m (ray_cells rj ri ej ei) Hf g Hm Hk (ray_in_grid g _ _ _ _ Hr He)) as (g1 & E & K & Fr).
  rewrite E. cbn [bind].
  destruct (updateCell_known m g1 ej ei (mp_occ m)) as (g2 & E2 & K2 & Fr2); auto.
  { apply (frame_mappable g); assumption. }
  { apply (frame_in_grid g); assumption. }
  { intros c Hc. apply (proj2 (Hf c Hc)). }
  exists g2. split; [exact E2|]. split; [exact K2|]. eapply frame_trans; eassumption.
Qed.

(** ** Beams *)
(** The end cell used for a beam of angle [a] and range [r], [None] if the beam is rejected. *)
Fixpoint hits_all g s Tms (a : T) (ranges : list T) (ends : list (option (Z * Z))) : Prop :=
  match ranges, ends with
  | [], [] => True
  | r :: rs, e :: es => hits g s Tms a r e /\ hits_all g s Tms (nto32 (a + s_ainc s)%num) rs es
  | _, _ => False
  end.
(** The angle of the k-th beam. *)
Lemma iter_shift {A} (f : A -> A) k a : Nat.iter k f (f a) = f (Nat.iter k f a).
Proof. induction k as [|k IH]; cbn; [reflexivity|]. unfold Nat.iter in *. cbn. f_equal. exact IH. Qed.
Lemma hits_all_iff g s Tms ranges : forall a ends,
  hits_all g s Tms a ranges ends <->
  length ends = length ranges /\
  forall k r e, nth_error ranges k = Some r -> nth_error ends k = Some e ->
    hits g s Tms (Nat.iter k (fun a => nto32 (a + s_ainc s)%num) a) r e.
Proof.
  induction ranges as [|r rs IH]; intros a [|e es]; cbn [hits_all length].
  - split; [intros _; split; [reflexivity|intros [|k] ? ? E; discriminate]|trivial].
  - split; [tauto|intros [H _]; discriminate].
  - split; [tauto|intros [H _]; discriminate].
  - rewrite IH. split.
    + intros (H1 & H2 & H3). split; [congruence|]. intros [|k] r' e' E1 E2; cbn in E1, E2.
      * injection E1 as <-. injection E2 as <-. exact H1.
      * specialize (H3 k r' e' E1 E2). pose proof (iter_shift (fun a => nto32 (a + s_ainc s)%num) k a) as I. cbv beta in I. rewrite I in H3. exact H3.
    + intros [H1 H2]. split; [apply (H2 O r e); reflexivity|]. split; [congruence|].
      intros k r' e' E1 E2. pose proof (iter_shift (fun a => nto32 (a + s_ainc s)%num) k a) as I. cbv beta in I. rewrite I. apply (H2 (S k) r' e'); assumption.
Qed.

Lemma hits_frame g g' s Tms a r e : same_frame g g' -> (hits g' s Tms a r e <-> hits g s Tms a r e).
Proof.
  intros Fr. unfold hits. rewrite (frame_world g g' _ _ Fr).
  setoid_rewrite (frame_in_grid g g' _ _ Fr). reflexivity.
Qed.
Lemma hits_all_frame g g' s Tms ranges : same_frame g g' -> forall a ends,
  hits_all g' s Tms a ranges ends <-> hits_all g s Tms a ranges ends.
Proof.
  intros Fr. induction ranges as [|r rs IH]; intros a [|e es]; cbn; try reflexivity.
  rewrite (hits_frame g g' _ _ _ _ _ Fr), IH. reflexivity.
Qed.

Lemma beam_step m g s Tms ri rj a r rest : mappable g -> in_grid g ri rj ->
  beam_loop m g s Tms (ri, rj) a (r :: rest) =
  if gated s r then beam_loop m g s Tms (ri, rj) (nto32 (a + s_ainc s)%num) rest
  else let* ptg := world2Grid g (fst (end_point Tms a r)) (snd (end_point Tms a r)) in
       let* g := (if gridBounds g (fst ptg) (snd ptg) then sweep m g ri rj (fst ptg) (snd ptg) else Ok g) in
       beam_loop m g s Tms (ri, rj) (nto32 (a + s_ainc s)%num) rest.
Proof.
  intros Hm Hr. cbn [beam_loop]. fold (gated s r). destruct (gated s r); [reflexivity|].
  unfold end_point. cbn [fst snd]. 
  destruct (world2Grid g _ _) as [[i j]| | |] eqn:W; cbn [bind]; try reflexivity. cbn [fst snd].
  apply world2Grid_range in W. destruct (gridBounds g i j) eqn:B; [|reflexivity].
  apply bounds_in in B; try tauto.
  destruct (in_grid_coord g ri rj Hm Hr) as (_ & _ & -> & ->). destruct (in_grid_coord g i j Hm B) as (_ & _ & -> & ->).
  reflexivity.
Qed.

Lemma beam_effect m s Tms ri rj ranges : forall g g' a, mappable g -> in_grid g ri rj ->
  beam_loop m g s Tms (ri, rj) a ranges = Ok g' ->
  same_frame g g' /\ exists ends, hits_all g s Tms a ranges ends /\
  forall i j v, in_grid g i j -> cell_is g i j v -> exists v', seen m ri rj i j ends v v' /\ cell_is g' i j v'.
Proof.
  induction ranges as [|r rest IH]; intros g g' a Hm Hr H.
  - cbn in H. injection H as <-. split; [apply frame_refl|]. exists []. split; [exact I|].
    intros i j v _ Hv. exists v. split; [reflexivity|exact Hv].
  - rewrite beam_step in H by assumption. destruct (gated s r) eqn:G.
    + destruct (IH g g' _ Hm Hr H) as (Fr & ends & HE & Eff). split; [exact Fr|].
      exists (None :: ends). split; [split; [left; auto|exact HE]|].
      intros i j v Hi Hv. destruct (Eff i j v Hi Hv) as (v' & S1 & S2). exists v'. split; [|exact S2].
      exists v. split; [reflexivity|exact S1].
    + destruct (world2Grid g _ _) as [[i0 j0]| | |] eqn:W; cbn [bind] in H; try discriminate. cbn [fst snd] in H.
      pose proof (world2Grid_range _ _ _ _ _ W) as [RI RJ].
      destruct (gridBounds g i0 j0) eqn:B.
      * apply bounds_in in B; try tauto.
        destruct (sweep m g ri rj i0 j0) as [g1| | |] eqn:Sw; cbn [bind] in H; try discriminate.
        destruct (sweep_effect m g g1 ri rj i0 j0 Hm Hr B Sw) as [Fr1 Eff1].
        destruct (IH g1 g' (nto32 (a + s_ainc s)%num)) as (Fr2 & ends & HE & Eff2); auto.
        { apply (frame_mappable g); assumption. }
        { apply (frame_in_grid g); assumption. }
        split; [eapply frame_trans; eassumption|]. exists (Some (i0, j0) :: ends).
        split.
        { split; [right; split; [exact G|]; exists i0, j0; split; [exact W|left; auto]|].
          apply (hits_all_frame g g1); assumption. }
        intros i j v Hi Hv. destruct (Eff1 i j v Hi Hv) as (w & S1 & S2).
        destruct (Eff2 i j w) as (v' & S3 & S4); auto.
        { apply (frame_in_grid g); assumption. }
        exists v'. split; [exists w; auto|exact S4].
      * cbn [bind] in H. assert (NB : ~ in_grid g i0 j0) by (intros C; apply bounds_in in C; try tauto; congruence).
        destruct (IH g g' _ Hm Hr H) as (Fr & ends & HE & Eff). split; [exact Fr|].
        exists (None :: ends). split.
        { split; [right; split; [exact G|]; exists i0, j0; split; [exact W|right; auto]|exact HE]. }
        intros i j v Hi Hv. destruct (Eff i j v Hi Hv) as (v' & S1 & S2). exists v'. split; [|exact S2].
        exists v. split; [reflexivity|exact S1].
Qed.
Lemma beam_total m s Tms ri rj ranges : fuse_total m -> forall g a ends, mappable g -> known g -> in_grid g ri rj ->
  hits_all g s Tms a ranges ends ->
  exists g', beam_loop m g s Tms (ri, rj) a ranges = Ok g' /\ known g'.
Proof.
  intros Hf. induction ranges as [|r rest IH]; intros g a ends Hm Hk Hr HE.
  - exists g. split; [reflexivity|exact Hk].
  - destruct ends as [|e es]; [destruct HE|]. destruct HE as [HE1 HE2].
    rewrite beam_step by assumption. destruct HE1 as [[G _]|[G (i & j & W & D)]].
    + rewrite G. eapply IH; eassumption.
    + rewrite G, W. cbn [bind fst snd]. pose proof (world2Grid_range _ _ _ _ _ W) as [RI RJ].
      destruct (gridBounds g i j) eqn:B.
      * apply bounds_in in B; try tauto.
        destruct (sweep_known m g ri rj i j Hf Hm Hk Hr B) as (g1 & E & K & Fr). rewrite E. cbn [bind].
        apply (IH g1 _ es); auto.
        { apply (frame_mappable g); assumption. }
        { apply (frame_in_grid g); assumption. }
        { apply (hits_all_frame g g1); assumption. }
      * cbn [bind]. eapply IH; eassumption.
Qed.

(** ** updateMap *)
Lemma c31_outside m g s pose ri rj : mappable g -> world2Grid g (v0 pose) (v1 pose) = Ok (ri, rj) ->
  (~ in_grid g ri rj <-> exists g', updateMap m g s pose = Ok (false, g')) /\
  (~ in_grid g ri rj -> updateMap m g s pose = Ok (false, g)).
Proof.
  intros Hm W. unfold updateMap. rewrite W. cbn [bind fst snd]. pose proof (world2Grid_range _ _ _ _ _ W) as [RI RJ].
  destruct (gridBounds g ri rj) eqn:B; cbn [negb].
  - apply bounds_in in B; try tauto. split; [|tauto]. split; [tauto|].
    intros [g' E]. destruct (beam_loop _ _ _ _ _ _ _); discriminate.
  - split; [|reflexivity]. split; [intros _; exists g; reflexivity|].
    intros _ C. apply bounds_in in C; try tauto. congruence.
Qed.
Lemma c31_effect m g s pose g' : mappable g -> updateMap m g s pose = Ok (true, g') ->
  same_frame g g' /\ exists ri rj ends,
    world2Grid g (v0 pose) (v1 pose) = Ok (ri, rj) /\ in_grid g ri rj /\ beam_ends m g s pose ends /\
    forall i j v, in_grid g i j -> cell_is g i j v ->
      exists v', seen m ri rj i j ends v v' /\ cell_is g' i j v'.
Proof.
  intros Hm H. unfold updateMap in H. destruct (world2Grid g (v0 pose) (v1 pose)) as [[ri rj]| | |] eqn:W; cbn [bind fst snd] in H; try discriminate.
  pose proof (world2Grid_range _ _ _ _ _ W) as [RI RJ].
  destruct (gridBounds g ri rj) eqn:B; cbn [negb] in H; [|discriminate].
  apply bounds_in in B; try tauto. fold (sensor_pose m pose) in H.
  destruct (beam_loop m g s (sensor_pose m pose) (ri, rj) (s_amin s) (s_ranges s)) as [g1| | |] eqn:E; cbn [bind] in H; try discriminate.
  injection H as <-.
  destruct (beam_effect m s _ ri rj _ g g1 _ Hm B E) as (Fr & ends & HE & Eff).
  split; [exact Fr|]. exists ri, rj, ends. split; [reflexivity|]. split; [exact B|]. split; [|exact Eff].
  apply hits_all_iff in HE. exact HE.
Qed.
Lemma c31_total m g s pose ri rj ends : mappable g -> known g -> fuse_total m ->
  world2Grid g (v0 pose) (v1 pose) = Ok (ri, rj) -> in_grid g ri rj -> beam_ends m g s pose ends ->
  exists g', updateMap m g s pose = Ok (true, g') /\ known g'.
Proof.
  intros Hm Hk Hf W Hr HE. unfold updateMap. rewrite W. cbn [bind fst snd]. pose proof (world2Grid_range _ _ _ _ _ W) as [RI RJ].
  assert (B : gridBounds g ri rj = true) by (apply bounds_in; assumption). rewrite B. cbn [negb].
  fold (sensor_pose m pose).
  destruct (beam_total m s (sensor_pose m pose) ri rj (s_ranges s) Hf g (s_amin s) ends Hm Hk Hr) as (g' & E & K).
  { apply hits_all_iff. exact HE. }
  rewrite E. cbn [bind]. eauto.
Qed.

(** Only cells on a ray or at the end of one can change. *)
Lemma seen_changed m ri rj i j ends : forall v v', seen m ri rj i j ends v v' -> v' <> v ->
  exists ei ej, In (Some (ei, ej)) ends /\ (on_ray rj ri ej ei j i \/ (i, j) = (ei, ej)).
Proof.
  induction ends as [|e ends IH]; cbn; intros v v' H N; [congruence|].
  destruct H as (w & H1 & H2). destruct (Z.eq_dec w v) as [->|Nw].
  - destruct (IH v v' H2 N) as (ei & ej & Hi & Hd). eauto 6.
  - destruct e as [[ei ej]|]; cbn in H1; [|congruence].
    exists ei, ej. split; [left; reflexivity|]. destruct H1 as [[A _]|[[A _]|(_ & _ & A)]]; auto. congruence.
Qed.
Lemma c31_changed m g s pose g' : mappable g -> updateMap m g s pose = Ok (true, g') ->
  exists ri rj ends, world2Grid g (v0 pose) (v1 pose) = Ok (ri, rj) /\ beam_ends m g s pose ends /\
    forall i j v v', in_grid g i j -> cell_is g i j v -> cell_is g' i j v' -> v <> v' ->
      exists ei ej, In (Some (ei, ej)) ends /\ (on_ray rj ri ej ei j i \/ (i, j) = (ei, ej)).
Proof.
  intros Hm H. destruct (c31_effect m g s pose g' Hm H) as (Fr & ri & rj & ends & W & Hr & HE & Eff).
  exists ri, rj, ends. split; [exact W|]. split; [exact HE|]. intros i j v v' Hi Hv Hv' N.
  destruct (Eff i j v Hi Hv) as (w & S1 & S2). assert (w = v') by (eapply cell_fun; eassumption). subst w.
  eapply seen_changed; [exact S1|congruence].
Qed.

(** ** Histories of scans *)
Lemma updateMap_frame m g s pose b g' : mappable g -> updateMap m g s pose = Ok (b, g') -> same_frame g g'.
Proof.
  intros Hm H. destruct b; [apply (c31_effect m g s pose g' Hm H)|].
  assert (W : exists ri rj, world2Grid g (v0 pose) (v1 pose) = Ok (ri, rj)).
  { unfold updateMap in H. destruct (world2Grid g _ _) as [[ri rj]| | |]; try discriminate. eauto. }
  destruct W as (ri & rj & W). destruct (c31_outside m g s pose ri rj Hm W) as [A B].
  assert (C : ~ in_grid g ri rj) by (apply A; eauto). rewrite (B C) in H. injection H as <-. apply frame_refl.
Qed.
Lemma seen_known m ri rj i j ends : fuse_total m -> forall v v', 0 <= v <= 100 -> seen m ri rj i j ends v v' -> 0 <= v' <= 100.
Proof.
  intros Hf. induction ends as [|e ends IH]; cbn; intros v v' Hv H; [lia|].
  destruct H as (w & H1 & H2). apply (IH w v'); [|exact H2].
  destruct e as [[ei ej]|]; cbn in H1; [|lia]. destruct (Hf v Hv) as [(a & A1 & A2) (b & B1 & B2)].
  destruct H1 as [[_ E]|[[_ E]|(_ & _ & ->)]]; [| |lia]; congruence || (rewrite E in *; injection A1 as ->; lia) || (rewrite E in *; injection B1 as ->; lia).
Qed.
Lemma update_step m g s pose b g' (P : Z -> Prop) i j v : mappable g ->
  updateMap m g s pose = Ok (b, g') -> in_grid g i j -> cell_is g i j v ->
  (forall ri rj ends w, seen m ri rj i j ends v w -> P w) -> P v -> exists w, cell_is g' i j w /\ P w.
Proof.
  intros Hm H Hi Hv HP Hvv. destruct b.
  - destruct (c31_effect m g s pose g' Hm H) as (_ & ri & rj & ends & _ & _ & _ & Eff).
    destruct (Eff i j v Hi Hv) as (w & S1 & S2). exists w. split; [exact S2|]. eapply HP. exact S1.
  - exists v. split; [|exact Hvv].
    assert (g' = g); [|subst; exact Hv].
    unfold updateMap in H. destruct (world2Grid g _ _) as [[ri rj]| | |]; try discriminate. cbn [bind fst snd] in H.
    destruct (negb _); [injection H; auto|]. destruct (beam_loop _ _ _ _ _ _ _); discriminate.
Qed.
(** A property of a cell that every observation keeps, stays true. *)
Lemma run_invariant m (P : Z -> Prop) :
  (forall v w, P v -> fuse m (mp_free m) v = Ok w -> P w) -> (forall v w, P v -> fuse m (mp_occ m) v = Ok w -> P w) ->
  forall h g g', mappable g -> map_run m g h = Ok g' ->
  same_frame g g' /\ forall i j v, in_grid g i j -> cell_is g i j v -> P v -> exists w, cell_is g' i j w /\ P w.
Proof.
  intros P1 P2.
  assert (PS : forall ri rj i j ends v w, P v -> seen m ri rj i j ends v w -> P w).
  { intros ri rj i j ends. induction ends as [|e ends IH]; cbn; intros v w Hv H; [subst; exact Hv|].
    destruct H as (x & H1 & H2). apply (IH x); [|exact H2].
    destruct e as [[ei ej]|]; cbn in H1; [|subst; exact Hv].
    destruct H1 as [[_ E]|[[_ E]|(_ & _ & ->)]]; eauto. }
  induction h as [|[s pose] h IH]; intros g g' Hm H; cbn [map_run] in H.
  - injection H as <-. split; [apply frame_refl|]. eauto.
  - destruct (updateMap m g s pose) as [[b g1]| | |] eqn:E; cbn [bind] in H; try discriminate.
    pose proof (updateMap_frame m g s pose b g1 Hm E) as Fr.
    destruct (IH g1 g' (frame_mappable g g1 Fr Hm) H) as [Fr2 Eff].
    split; [eapply frame_trans; eassumption|]. intros i j v Hi Hv Pv.
    destruct (update_step m g s pose b g1 P i j v Hm E Hi Hv) as (w & W1 & W2); auto.
    { intros. eapply PS; eassumption. }
    apply (Eff i j w); auto. apply (frame_in_grid g); assumption.
Qed.
Lemma run_known m h : fuse_total m -> forall g g', mappable g -> known g -> map_run m g h = Ok g' -> known g'.
Proof.
  intros Hf g g' Hm Hk H.
  destruct (run_invariant m (fun v => 0 <= v <= 100)) with (h := h) (g := g) (g' := g') as [Fr Eff]; auto.
  { intros v w Hv E. destruct (Hf v Hv) as [(a & A1 & A2) _]. congruence. }
  { intros v w Hv E. destruct (Hf v Hv) as [_ (a & A1 & A2)]. congruence. }
  unfold known. apply Forall_forall. intros v Hv. apply In_nth_error in Hv. destruct Hv as [k Hk'].
  pose proof (frame_mappable g g' Fr Hm) as Hm'. pose proof Hm' as ((X1 & X2) & (Y1 & Y2) & _ & S).
  assert (L : (k < length (g_data g'))%nat) by (apply nth_error_Some; congruence).
  unfold sized, lenZ, cells in S.
  pose proof (Z.div_mod (Z.of_nat k) (g_xsize g') ltac:(lia)) as DM.
  pose proof (Z.mod_pos_bound (Z.of_nat k) (g_xsize g') ltac:(lia)) as MB.
  set (i := Z.of_nat k / g_xsize g') in *. set (j := Z.of_nat k mod g_xsize g') in *.
  assert (Hij : in_grid g' i j) by (unfold in_grid; nia).
  assert (Hc : cell_is g' i j v).
  { unfold cell_is. replace (Z.to_nat (i * g_xsize g' + j)) with k by lia. exact Hk'. }
  assert (Hij0 : in_grid g i j) by (apply (frame_in_grid g g'); assumption).
  destruct (cell_exists g i j Hm Hij0) as [v0 Hv0].
  destruct (Eff i j v0 Hij0 Hv0) as (w & W1 & W2); [eapply known_cell; eassumption|].
  assert (v = w) by (eapply cell_fun; eassumption). subst w. exact W2.
Qed.

(** ** Gating *)
Lemma beam_gated m s Tms psg l1 : forall g a r r' l2, gated s r = true -> gated s r' = true ->
  beam_loop m g s Tms psg a (l1 ++ r :: l2) = beam_loop m g s Tms psg a (l1 ++ r' :: l2).
Proof.
  induction l1 as [|b l1 IH]; intros g a r r' l2 G G'; cbn [app beam_loop].
  - fold (gated s r) (gated s r'). rewrite G, G'. reflexivity.
  - destruct (_ || _); [apply IH; assumption|].
    destruct (world2Grid g _ _) as [ptg| | |]; cbn [bind]; try reflexivity.
    destruct (if gridBounds g (fst ptg) (snd ptg) then _ else _) as [g1| | |]; cbn [bind]; try reflexivity.
    apply IH; assumption.
Qed.
Lemma beam_gated_all m s Tms psg ranges : forall g a, Forall (fun r => gated s r = true) ranges ->
  beam_loop m g s Tms psg a ranges = Ok g.
Proof.
  induction ranges as [|b l1 IH]; intros g a H; cbn [beam_loop]; [reflexivity|].
  inversion H; subst. fold (gated s b). rewrite H2. apply IH. assumption.
Qed.
End Mapping.
