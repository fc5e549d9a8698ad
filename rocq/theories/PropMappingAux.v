(** Lemmas behind the mapping properties. *)
From Coq Require Import Reals Lra ZArith List Lia ZifyBool.
From Flocq Require Import Core.Raux IEEE754.BinarySingleNaN.
From Verif Require Import Outcome Num Float64 FloatLemmas GridModel GridProofs NumericsModel NumericsProofs SpecMotion
  MappingModel Spec SpecMapping RayProofs MappingProofs MappingFloat.
Import ListNotations.
Local Open Scope Z_scope.
Ltac Zify.zify_post_hook ::= idtac.

Lemma nth_ext_eq {A} (l1 : list A) : forall l2, length l1 = length l2 -> (forall k, nth_error l1 k = nth_error l2 k) -> l1 = l2.
Proof.
  induction l1 as [|a l1 IH]; intros [|b l2] HL H; try discriminate; [reflexivity|].
  pose proof (H 0%nat) as H0. cbn in H0. injection H0 as ->. f_equal. apply IH; [cbn in HL; congruence|]. intros k. apply (H (S k)).
Qed.

(** ** C30 *)
Section Generic.
Context {T : Type} {NT : Num T}.
Lemma c30_ray (m : mapper T) g x0 y0 x1 y1 :
  0 <= x0 < 2 ^ 30 -> 0 <= y0 < 2 ^ 30 -> 0 <= x1 < 2 ^ 30 -> 0 <= y1 < 2 ^ 30 ->
  exists l, rayTrace m g x0 y0 x1 y1 = free_all m g l /\ NoDup l /\
    (forall x y, In (x, y) l <-> on_ray x0 y0 x1 y1 x y) /\
    lenZ l = Z.max (Z.abs (x1 - x0)) (Z.abs (y1 - y0)).
Proof.
  intros. exists (ray_cells x0 y0 x1 y1). split; [apply rayTrace_cells; assumption|].
  split; [apply ray_nodup|]. split; [intros; apply ray_cells_on_ray|apply ray_length].
Qed.
Lemma on_ray_start x0 y0 x1 y1 : (x0, y0) <> (x1, y1) -> on_ray x0 y0 x1 y1 x0 y0.
Proof.
  intros N. unfold on_ray, nearest.
  assert (N' : x0 <> x1 \/ y0 <> y1) by (destruct (Z.eq_dec x0 x1), (Z.eq_dec y0 y1); subst; auto; congruence).
  destruct (Z.leb_spec (Z.abs (y1 - y0)) (Z.abs (x1 - x0))).
  - split; [lia|]. destruct (Z.leb_spec x0 x1).
    + destruct (y1 <? y0); rewrite !Z.sub_diag; lia.
    + replace ((x0 - x1) * (y0 - y1) - (y0 - y1) * (x0 - x1)) with 0 by ring. destruct (y0 <? y1); lia.
  - split; [lia|]. destruct (Z.leb_spec y0 y1).
    + destruct (x1 <? x0); rewrite !Z.sub_diag; lia.
    + replace ((y0 - y1) * (x0 - x1) - (x0 - x1) * (y0 - y1)) with 0 by ring. destruct (x0 <? x1); lia.
Qed.
(** Every column (or row) between the ends is met exactly once. *)
Lemma on_ray_unique x0 y0 x1 y1 x y y' : Z.abs (y1 - y0) <= Z.abs (x1 - x0) ->
  on_ray x0 y0 x1 y1 x y -> on_ray x0 y0 x1 y1 x y' -> y = y'.
Proof.
  intros A H1 H2. unfold on_ray in *. destruct (Z.leb_spec (Z.abs (y1 - y0)) (Z.abs (x1 - x0))); [|lia].
  destruct H1 as [R1 H1], H2 as [_ H2].
  destruct (Z.leb_spec x0 x1); rewrite nearest_kk in H1, H2 by lia; congruence.
Qed.

(** ** C35 *)
Lemma c35_gated (m : mapper T) g s pose l1 l2 r r' : gated s r = true -> gated s r' = true ->
  let with_ranges rs := mkScan (s_amin s) (s_ainc s) (s_rmin s) (s_rmax s) rs in
  updateMap m g (with_ranges (l1 ++ r :: l2)) pose = updateMap m g (with_ranges (l1 ++ r' :: l2)) pose.
Proof.
  intros G G'. cbv zeta. unfold updateMap. destruct (world2Grid g _ _) as [psg| | |]; cbn [bind]; try reflexivity.
  destruct (negb _); [reflexivity|]. cbn [s_amin s_ranges].
  set (Tms := mmul _ _). 
  assert (E : forall rs, forall g0 a, beam_loop m g0 (mkScan (s_amin s) (s_ainc s) (s_rmin s) (s_rmax s) (l1 ++ r :: l2)) Tms psg a rs =
                beam_loop m g0 (mkScan (s_amin s) (s_ainc s) (s_rmin s) (s_rmax s) (l1 ++ r' :: l2)) Tms psg a rs).
  { induction rs as [|b rs IH]; intros g0 a; cbn [beam_loop s_ainc s_rmax s_rmin]; [reflexivity|].
    destruct (_ || _); [apply IH|]. destruct (world2Grid g0 _ _); cbn [bind]; try reflexivity.
    destruct (if gridBounds g0 _ _ then _ else _); cbn [bind]; auto. }
  set (s1 := mkScan (s_amin s) (s_ainc s) (s_rmin s) (s_rmax s) (l1 ++ r :: l2)) in *.
  rewrite (beam_gated m s1 Tms psg l1 g (s_amin s) r r' l2 G G'). rewrite E. reflexivity.
Qed.
Lemma c35_all_gated (m : mapper T) g s pose b g' : Forall (fun r => gated s r = true) (s_ranges s) ->
  updateMap m g s pose = Ok (b, g') -> g' = g.
Proof.
  intros G H. unfold updateMap in H. destruct (world2Grid g _ _) as [psg| | |]; cbn [bind] in H; try discriminate.
  destruct (negb _); [congruence|]. rewrite (beam_gated_all m s _ _ _ _ _ G) in H. cbn [bind] in H. congruence.
Qed.
End Generic.

Lemma angle_at_R (s : scan R) k : angle_at s k = (s_amin s + INR k * s_ainc s)%R.
Proof.
  unfold angle_at. induction k as [|k IH]; [cbn; ring|].
  change (Nat.iter (S k) ?f ?x) with (f (Nat.iter k f x)). cbv beta. rewrite IH. rewrite S_INR.
  cbn [nto32 nadd RNum]. ring.
Qed.
(** The end point of a beam in the world: sensor mounting, then robot pose. *)
Lemma end_point_R (m : mapper R) (pose : vec3 R) tx ty ta a r : mp_Tbs m = transform2d tx ty ta ->
  end_point (sensor_pose m pose) a r =
  rigid (v0 pose) (v1 pose) (v2 pose) (rigid tx ty ta (r * cos a, r * sin a))%R.
Proof.
  intros E. unfold end_point, sensor_pose. rewrite E, c23_compose.
  unfold polar2CartesianHomo. runfold.
  pose proof (c23_action (fst (rigid (v0 pose) (v1 pose) (v2 pose) (tx, ty))) (snd (rigid (v0 pose) (v1 pose) (v2 pose) (tx, ty)))
    (v2 pose + ta) (r * cos a, r * sin a)%R) as H. cbn [fst snd] in H. rewrite H. cbn [v0 v1].
  unfold rigid. cbn [fst snd]. rewrite cos_plus, sin_plus. f_equal; ring.
Qed.

(** NaN ranges *)
Lemma nan_plus_l (y : b64) : Bplus mode_NE B754_nan y = B754_nan. Proof. destruct y; reflexivity. Qed.
Lemma nan_plus_r (y : b64) : Bplus mode_NE y B754_nan = B754_nan. Proof. destruct y; reflexivity. Qed.
Lemma nan_mult_l (y : b64) : Bmult mode_NE B754_nan y = B754_nan. Proof. destruct y; reflexivity. Qed.
Lemma nan_mult_r (y : b64) : Bmult mode_NE y B754_nan = B754_nan. Proof. destruct y; reflexivity. Qed.
Lemma nan_minus_l (y : b64) : Bminus mode_NE B754_nan y = B754_nan. Proof. destruct y; reflexivity. Qed.
Lemma nan_div_l (y : b64) : Bdiv mode_NE B754_nan y = B754_nan. Proof. destruct y; reflexivity. Qed.
Lemma nan_gate (L : libm) (s : scan b64) : @gated b64 (F64 L) s B754_nan = false.
Proof. unfold gated. cbn [nlt F64]. destruct (s_rmax s), (s_rmin s); reflexivity. Qed.
Lemma nan_world (L : libm) (g : grid b64) (y : b64) : @world2Grid b64 (F64 L) g B754_nan y = UB UFloatCast.
Proof. unfold world2Grid. cbn [nsub ndiv nfloor F64]. rewrite nan_minus_l, nan_div_l. reflexivity. Qed.
Lemma nan_end (L : libm) Tms a : fst (@end_point b64 (F64 L) Tms a B754_nan) = B754_nan.
Proof.
  unfold end_point, mvmul, polar2CartesianHomo, vdot. cbn [fst v0 v1 nadd nmul F64].
  rewrite !nan_mult_l, !nan_mult_r. rewrite ?nan_plus_l, ?nan_plus_r. reflexivity.
Qed.
(** The first beam that is NaN makes the update undefined. *)
Lemma nan_beam (L : libm) m s Tms ri rj l1 : forall (g : grid b64) a l2, mappable g -> in_grid g ri rj ->
  Forall (fun r => @gated b64 (F64 L) s r = true) l1 ->
  @beam_loop b64 (F64 L) m g s Tms (ri, rj) a (l1 ++ B754_nan :: l2) = UB UFloatCast.
Proof.
  induction l1 as [|b l1 IH]; intros g a l2 Hm Hr G; cbn [app]; rewrite (@beam_step b64 (F64 L)) by assumption.
  - rewrite nan_gate, nan_end, nan_world. reflexivity.
  - inversion G; subst. rewrite H1. apply IH; assumption.
Qed.
Lemma c35_nan (L : libm) (m : mapper b64) (g : grid b64) (s : scan b64) pose ri rj (l1 l2 : list b64) : mappable g ->
  @world2Grid b64 (F64 L) g (v0 pose) (v1 pose) = Ok (ri, rj) -> in_grid g ri rj ->
  s_ranges s = l1 ++ (B754_nan : b64) :: l2 -> Forall (fun r => @gated b64 (F64 L) s r = true) l1 ->
  @updateMap b64 (F64 L) m g s pose = UB UFloatCast.
Proof.
  intros Hm W Hr E G. unfold updateMap. rewrite W. cbn [bind fst snd].
  pose proof (@world2Grid_range b64 (F64 L) _ _ _ _ _ W) as [RI RJ].
  assert (B : gridBounds g ri rj = true) by (apply bounds_in; assumption). rewrite B. cbn [negb].
  rewrite E, nan_beam by assumption. reflexivity.
Qed.

(** ** C33: unknown cells *)
Section Unknown.
Variable L : libm.
Hypothesis HL : explog_rules L.
Variable Tbs : mat3 b64.
Let m : mapper b64 := the_mapper L Tbs.
Local Notation "'updC'" := (@updateCell b64 (F64 L)).

Definition ok_or_ub {A} (r : res A) (P : A -> Prop) : Prop := (exists a, r = Ok a /\ P a) \/ r = UB UFloatCast.

Lemma fuse_cases log c : is_finite log = true -> -128 <= c <= 100 ->
  ok_or_ub (@fuse b64 (F64 L) m log c) (fun v => 0 <= v <= 100).
Proof.
  intros Fl Hc. assert (D : c = 0 \/ c = 100 \/ 1 <= c <= 99 \/ -128 <= c <= -1) by lia.
  destruct D as [-> | [-> | [D | D]]].
  - left. exists 0. split; [apply fuse_0; assumption|lia].
  - left. exists 100. split; [apply fuse_100; assumption|lia].
  - left. destruct (fuse_mid L HL Tbs log c Fl D) as (v & E & R). eauto.
  - right. apply fuse_unknown; assumption.
Qed.
Lemma byte_cell (g : grid b64) i j v : byte_map g -> cell_is g i j v -> -128 <= v <= 100.
Proof. unfold byte_map, cell_is. rewrite Forall_forall. intros H E. apply H. eapply nth_error_In. exact E. Qed.
Lemma set_byte g i j v : byte_map g -> -128 <= v <= 100 -> byte_map (set_cell g i j v).
Proof. intros H Hv. apply set_nth_Forall; assumption. Qed.

Definition fine (g g' : grid b64) : Prop := byte_map g' /\ same_frame g g'.
Lemma updC_cases g x y log : mappable g -> byte_map g -> in_grid g y x -> is_finite log = true ->
  ok_or_ub (updC m g x y log) (fine g).
Proof.
  intros Hm Hb Hi Fl. destruct (cell_exists g y x Hm Hi) as [w Hw].
  rewrite (@updateCell_in b64 (F64 L) m g x y _ w Hm Hi Hw).
  destruct (fuse_cases log w Fl (byte_cell g y x w Hb Hw)) as [(v & E & R)|E]; rewrite E; cbn [bind].
  - left. eexists. split; [reflexivity|]. split; [apply set_byte; [assumption|lia]|apply set_cell_frame].
  - right. reflexivity.
Qed.
Lemma free_cases l : forall g, mappable g -> byte_map g -> (forall x y, In (x, y) l -> in_grid g y x) ->
  ok_or_ub (@free_all b64 (F64 L) m g l) (fine g).
Proof.
  induction l as [|[x y] l IH]; intros g Hm Hb Hl; cbn [free_all].
  - left. exists g. split; [reflexivity|]. split; [assumption|apply frame_refl].
  - destruct (updC_cases g x y (mp_free m) Hm Hb) as [(g1 & E & B1 & Fr)|E]; [apply Hl; left; reflexivity|apply free_finite; assumption| |]; rewrite E; cbn [bind]; [|right; reflexivity].
    destruct (IH g1) as [(g2 & E2 & B2 & Fr2)|E2]; auto.
    { apply (frame_mappable g); assumption. }
    { intros a b H. apply (frame_in_grid g _ b a Fr). apply Hl. right. exact H. }
    + left. exists g2. split; [exact E2|]. split; [exact B2|]. eapply frame_trans; eassumption.
    + right. exact E2.
Qed.
Lemma sweep_cases g ri rj ei ej : mappable g -> byte_map g -> in_grid g ri rj -> in_grid g ei ej ->
  ok_or_ub (@sweep b64 (F64 L) m g ri rj ei ej) (fine g).
Proof.
  intros Hm Hb Hr He. unfold sweep.
  destruct (in_grid_coord g ri rj Hm Hr) as (C1 & C2 & _). destruct (in_grid_coord g ei ej Hm He) as (C3 & C4 & _).
  rewrite (@rayTrace_cells b64 (F64 L)) by assumption.
  destruct (free_cases (ray_cells rj ri ej ei) g Hm Hb (ray_in_grid g _ _ _ _ Hr He)) as [(g1 & E & B1 & Fr)|E]; rewrite E; cbn [bind]; [|right; reflexivity].
  destruct (updC_cases g1 ej ei (mp_occ m)) as [(g2 & E2 & B2 & Fr2)|E2]; auto.
  { apply (frame_mappable g); assumption. }
  { apply (frame_in_grid g); assumption. }
  { apply occ_finite; assumption. }
  - left. exists g2. split; [exact E2|]. split; [exact B2|]. eapply frame_trans; eassumption.
  - right. exact E2.
Qed.
Lemma world_cases (g : grid b64) x y : ok_or_ub (@world2Grid b64 (F64 L) g x y) (fun _ => True).
Proof.
  unfold world2Grid, to_u32. 
  destruct (ntrunc _) as [a|]; [|right; reflexivity].
  destruct (_ && _); [|right; reflexivity]. cbn [bind].
  destruct (ntrunc _) as [b|]; [|right; reflexivity].
  destruct (_ && _); [|right; reflexivity]. cbn [bind]. left. eauto.
Qed.
Lemma beam_cases s Tms ri rj ranges : forall g a, mappable g -> byte_map g -> in_grid g ri rj ->
  ok_or_ub (@beam_loop b64 (F64 L) m g s Tms (ri, rj) a ranges) (fun _ => True).
Proof.
  induction ranges as [|r rest IH]; intros g a Hm Hb Hr; [left; eexists; split; [reflexivity|trivial]|].
  rewrite (@beam_step b64 (F64 L)) by assumption. destruct (@gated b64 (F64 L) s r); [apply IH; assumption|].
  destruct (world_cases g (fst (@end_point b64 (F64 L) Tms a r)) (snd (@end_point b64 (F64 L) Tms a r))) as [([i j] & W & _)|W]; rewrite W; cbn [bind fst snd]; [|right; reflexivity].
  pose proof (@world2Grid_range b64 (F64 L) _ _ _ _ _ W) as [RI RJ].
  destruct (gridBounds g i j) eqn:B; [|apply IH; assumption].
  apply bounds_in in B; try tauto.
  destruct (sweep_cases g ri rj i j Hm Hb Hr B) as [(g1 & E & B1 & Fr)|E]; rewrite E; cbn [bind]; [|right; reflexivity].
  apply IH; auto.
  - apply (frame_mappable g); assumption.
  - apply (frame_in_grid g); assumption.
Qed.
Lemma seen_unknown ri rj i j ends : forall v v', -128 <= v <= -1 ->
  (exists ei ej, In (Some (ei, ej)) ends /\ (on_ray rj ri ej ei j i \/ (i, j) = (ei, ej))) ->
  @seen b64 (F64 L) m ri rj i j ends v v' -> False.
Proof.
  induction ends as [|e ends IH]; intros v v' Hv (ei & ej & Hi & Hd) H; [destruct Hi|].
  cbn [seen] in H. destruct H as (w & H1 & H2). destruct e as [[ai aj]|].
  - unfold seen_by in H1. rewrite !(fuse_unknown L HL Tbs) in H1 by assumption.
    destruct H1 as [[_ C]|[[_ C]|(N1 & N2 & ->)]]; try discriminate.
    destruct Hi as [Hi|Hi].
    + injection Hi as -> ->. tauto.
    + apply (IH v v' Hv); eauto.
  - unfold seen_by in H1. subst w. destruct Hi as [Hi|Hi]; [discriminate|]. apply (IH v v' Hv); eauto.
Qed.
Lemma hits_fun (g : grid b64) s Tms a r e e' : @hits b64 (F64 L) g s Tms a r e -> @hits b64 (F64 L) g s Tms a r e' -> e = e'.
Proof.
  intros [[G ->]|[G (i & j & W & D)]] [[G' ->]|[G' (i' & j' & W' & D')]]; try congruence.
  rewrite W in W'. injection W' as <- <-. destruct D as [[A ->]|[A ->]], D' as [[B ->]|[B ->]]; tauto.
Qed.
Lemma c33_unknown g s pose ri rj k r ei ej i j v : mappable g -> byte_map g ->
  @world2Grid b64 (F64 L) g (v0 pose) (v1 pose) = Ok (ri, rj) -> in_grid g ri rj ->
  nth_error (s_ranges s) k = Some r ->
  @hits b64 (F64 L) g s (@sensor_pose b64 (F64 L) m pose) (@angle_at b64 (F64 L) s k) r (Some (ei, ej)) ->
  in_grid g i j -> cell_is g i j v -> v < 0 -> on_ray rj ri ej ei j i \/ (i, j) = (ei, ej) ->
  @updateMap b64 (F64 L) m g s pose = UB UFloatCast.
Proof.
  intros Hm Hb W Hr Hk Hh Hi Hv Nv Ho.
  assert (C : ok_or_ub (@updateMap b64 (F64 L) m g s pose) (fun p => fst p = true)).
  { unfold updateMap. rewrite W. cbn [bind fst snd]. pose proof (@world2Grid_range b64 (F64 L) _ _ _ _ _ W) as [RI RJ].
    assert (B : gridBounds g ri rj = true) by (apply bounds_in; assumption). rewrite B. cbn [negb].
    destruct (beam_cases s (@mmul b64 (F64 L) (@transform2d b64 (F64 L) (v0 pose) (v1 pose) (v2 pose)) (mp_Tbs m)) ri rj (s_ranges s) g (s_amin s) Hm Hb Hr) as [(g1 & E & _)|E];
      rewrite E; cbn [bind]; [|right; reflexivity]. left. eexists. split; reflexivity. }
  destruct C as [([b g'] & E & Eb)|E]; [|exact E]. cbn in Eb. subst b. exfalso.
  destruct (@c31_effect b64 (F64 L) m g s pose g' Hm E) as (_ & ri' & rj' & ends & W' & _ & [LE HE] & Eff).
  rewrite W in W'. injection W' as <- <-.
  destruct (Eff i j v Hi Hv) as (w & S1 & _).
  destruct (nth_error ends k) as [e|] eqn:Ek.
  - pose proof (HE k r e Hk Ek) as Hh'. pose proof (hits_fun _ _ _ _ _ _ _ Hh Hh') as <-.
    apply (seen_unknown ri rj i j ends v w); [pose proof (byte_cell g i j v Hb Hv); lia| |exact S1].
    exists ei, ej. split; [|exact Ho]. eapply nth_error_In. exact Ek.
  - apply nth_error_None in Ek. assert (k < length (s_ranges s))%nat by (apply nth_error_Some; congruence). lia.
Qed.
End Unknown.

(** ** C32 *)
Lemma c32_range (L : libm) Tbs (g g' : grid b64) h : explog_rules L -> mappable g -> known g ->
  @map_run b64 (F64 L) (@mapper_ctor b64 (F64 L) Tbs) g h = Ok g' -> known g'.
Proof. intros HL Hm Hk H. eapply (@run_known b64 (F64 L)); try eassumption. apply fuse_total_b64. exact HL. Qed.
Lemma c32_absorbing (L : libm) Tbs (g g' : grid b64) h i j v : explog_rules L -> mappable g ->
  @map_run b64 (F64 L) (@mapper_ctor b64 (F64 L) Tbs) g h = Ok g' ->
  in_grid g i j -> cell_is g i j v -> v = 0 \/ v = 100 -> cell_is g' i j v.
Proof.
  intros HL Hm H Hi Hv D.
  pose proof (occ_finite L HL Tbs) as FO. pose proof (free_finite L HL Tbs) as FF.
  destruct (@run_invariant b64 (F64 L) (the_mapper L Tbs) (fun w => w = v)) with (h := h) (g := g) (g' := g') as [_ Eff]; auto.
  - intros a w -> E. destruct D as [-> | ->]; [rewrite fuse_0 in E by assumption|rewrite fuse_100 in E by assumption]; congruence.
  - intros a w -> E. destruct D as [-> | ->]; [rewrite fuse_0 in E by assumption|rewrite fuse_100 in E by assumption]; congruence.
  - destruct (Eff i j v Hi Hv eq_refl) as (w & W & ->). exact W.
Qed.
Lemma c32_total (L : libm) Tbs (g : grid b64) s pose ri rj ends : explog_rules L -> mappable g -> known g ->
  @world2Grid b64 (F64 L) g (v0 pose) (v1 pose) = Ok (ri, rj) -> in_grid g ri rj ->
  @beam_ends b64 (F64 L) (@mapper_ctor b64 (F64 L) Tbs) g s pose ends ->
  exists g', @updateMap b64 (F64 L) (@mapper_ctor b64 (F64 L) Tbs) g s pose = Ok (true, g') /\ known g'.
Proof. intros HL Hm Hk W Hr HE. eapply (@c31_total b64 (F64 L)); try eassumption. apply fuse_total_b64. exact HL. Qed.

(** A toy exp/log that obeys the rules. *)
Definition toy_libm : libm := {|
  m_sin := fun x => B754_zero false; m_cos := fun x => b64_ofZ 1;
  m_exp := fun x => match x with B754_nan => B754_nan | B754_infinity true => B754_zero false
                    | B754_infinity false => B754_infinity false | _ => b64_ofZ 1 end;
  m_log := fun x => match x with B754_nan => B754_nan | B754_infinity false => B754_infinity false
                    | B754_infinity true => B754_nan | B754_zero _ => B754_infinity true
                    | B754_finite true _ _ _ => B754_nan | B754_finite false _ _ _ => b64_ofZ 0 end;
  m_atan2 := fun x y => x; m_pow := fun x y => x |}.
Lemma toy_rules : explog_rules toy_libm.
Proof.
  constructor; cbn; try reflexivity.
  - intros [s|[]| |[] mm e p] F B; try discriminate; reflexivity.
  - intros [[]|[]| |[] mm e p] B; try discriminate; reflexivity.
  - intros [s|[]| |s mm e p] F; try discriminate; split; reflexivity.
Qed.

(** ** A concrete map: 10 x 10 cells of size 1, all 50 except possibly one *)
Definition b (p q : Z) : b64 := b64_scaled p q.
Definition map10 (k : nat) (v : Z) : grid b64 :=
  mkGrid 10 10 (b 1 0) (b 0 0) (b 0 0) (b 10 0) (b 10 0) (set_nth (repeat 50 100) k v).
Definition scan1 (r : b64) : scan b64 := mkScan (b 0 0) (b 1 0) (b 0 0) (b 8 0) [r].
Definition pose00 : vec3 b64 := V3 (b 1 (-1)) (b 1 (-1)) (b 0 0).
Definition mount (d : b64) : mat3 b64 := M3 (V3 (b 1 0) (b 0 0) d) (V3 (b 0 0) (b 1 0) (b 0 0)) (V3 (b 0 0) (b 0 0) (b 1 0)).
Lemma map10_mappable k v : mappable (map10 k v).
Proof.
  unfold mappable, sized, cells, map10, lenZ. cbn [g_xsize g_ysize g_data]. rewrite set_nth_length, repeat_length.
  split; [split; vm_compute; congruence|]. split; [split; vm_compute; congruence|]. split; [vm_compute; congruence|reflexivity].
Qed.
Lemma map10_bytes k v : -128 <= v <= 100 -> byte_map (map10 k v).
Proof.
  intros H. unfold byte_map, map10. cbn [g_data]. apply set_nth_Forall; [|exact H].
  apply Forall_forall. intros x Hx. apply repeat_spec in Hx. subst. lia.
Qed.
Lemma map10_known k v : 0 <= v <= 100 -> known (map10 k v).
Proof.
  intros H. unfold known, map10. cbn [g_data]. apply set_nth_Forall; [|exact H].
  apply Forall_forall. intros x Hx. apply repeat_spec in Hx. subst. lia.
Qed.
Definition trig0 (L : libm) : Prop := m_cos L (b 0 0) = b 1 0 /\ m_sin L (b 0 0) = b 0 0.
Lemma pose00_cell L k v : @world2Grid b64 (F64 L) (map10 k v) (v0 pose00) (v1 pose00) = Ok (0, 0).
Proof. vm_compute. reflexivity. Qed.
Lemma in10 k v i j : 0 <= i < 10 -> 0 <= j < 10 -> in_grid (map10 k v) i j.
Proof. unfold in_grid, map10; cbn. auto. Qed.
(** With the sensor mounted [d] ahead of the robot, a reading of [r] ends at 0.5 + d + r. *)
Lemma beam10 L k v (d r e : Z) : trig0 L -> In (d, r, e) [(0, 6, 6); (5, 1, 6)] ->
  @hits b64 (F64 L) (map10 k v) (scan1 (b r 0)) (@sensor_pose b64 (F64 L) (@mapper_ctor b64 (F64 L) (mount (b d 0))) pose00)
     (@angle_at b64 (F64 L) (scan1 (b r 0)) 0) (b r 0) (Some (0, e)).
Proof.
  intros [C S] H. right.
  assert (G : In (d, r, e) [(0, 6, 6); (5, 1, 6)] -> @gated b64 (F64 L) (scan1 (b r 0)) (b r 0) = false).
  { intros [E|[E|[]]]; injection E as <- <- <-; vm_compute; reflexivity. }
  split; [apply G; exact H|]. exists 0, e.
  split; [|left; split; [|reflexivity]].
  - unfold end_point, sensor_pose, mapper_ctor, angle_at, transform2d, mmul, rmmul, mvmul, vdot, polar2CartesianHomo, col0, col1, col2, mount, pose00, scan1, n0, n1.
    cbn [mp_Tbs r0 r1 r2 v0 v1 v2 fst snd s_amin Nat.iter nat_rect nadd nsub nmul ndiv nneg ncos nsin nofZ F64]. rewrite C, S.
    destruct H as [E|[E|[]]]; injection E as <- <- <-; vm_compute; reflexivity.
  - destruct H as [E|[E|[]]]; injection E as <- <- <-; apply in10; lia.
Qed.

(** ** C34 *)
Lemma bayes_p c o p : 1 <= c <= 99 -> (0 < o)%R -> bayes c o p -> (p = o * IZR c / (o * IZR c + (100 - IZR c)))%R.
Proof.
  intros [C1 C2] Ho [Hp E]. apply IZR_le in C1, C2.
  assert (D : (p * (100 - IZR c) = o * IZR c * (1 - p))%R).
  { apply (Rmult_eq_reg_r (/ (1 - p) * / (100 - IZR c))); [|apply Rmult_integral_contrapositive; split; apply Rinv_neq_0_compat; lra].
    replace (p * (100 - IZR c) * (/ (1 - p) * / (100 - IZR c)))%R with (p / (1 - p))%R by (field; lra).
    replace (o * IZR c * (1 - p) * (/ (1 - p) * / (100 - IZR c)))%R with (o * (IZR c / (100 - IZR c)))%R by (field; lra). exact E. }
  assert (0 < o * IZR c)%R by (apply Rmult_lt_0_compat; lra).
  apply (Rmult_eq_reg_r (o * IZR c + (100 - IZR c))); [|lra].
  unfold Rdiv. rewrite Rmult_assoc, Rinv_l, Rmult_1_r by lra. lra.
Qed.
Lemma div_floor a k (x : R) : 0 < k -> (x = IZR a / IZR k)%R -> (IZR (a / k) <= x < IZR (a / k) + 1)%R.
Proof.
  intros Hk ->. pose proof (IZR_lt _ _ Hk). pose proof (Z.div_mod a k ltac:(lia)) as D. pose proof (Z.mod_pos_bound a k Hk) as B.
  assert (E : (IZR a = IZR k * IZR (a / k) + IZR (a mod k))%R) by (rewrite <- mult_IZR, <- plus_IZR; f_equal; exact D).
  destruct B as [B1 B2]. apply IZR_le in B1. apply IZR_lt in B2.
  split.
  - apply (Rmult_le_reg_r (IZR k)); [assumption|]. unfold Rdiv. rewrite Rmult_assoc, Rinv_l by lra. nra.
  - apply (Rmult_lt_reg_r (IZR k)); [assumption|]. unfold Rdiv. rewrite Rmult_assoc, Rinv_l by lra. nra.
Qed.
Section C34.
Variable Tbs : mat3 R.
Let m : mapper R := mapper_ctor Tbs.
Lemma c34_occ (g : grid R) x y c : mappable g -> in_grid g y x -> cell_is g y x c -> 1 <= c <= 99 ->
  exists v, updateCell m g x y (mp_occ m) = Ok (set_cell g y x v) /\ c <= v <= 100 /\
    forall p, bayes c 9 p -> (IZR v <= 100 * p < IZR v + 1)%R.
Proof.
  intros Hm Hi Hc R. rewrite (updateCell_in m g x y _ c Hm Hi Hc). unfold m. rewrite fuse_occ_R by assumption. cbn [bind].
  eexists. split; [reflexivity|]. split; [apply occ_not_lower; assumption|].
  intros p Hp. apply bayes_p in Hp; [|assumption|lra]. apply div_floor; [lia|]. rewrite Hp, plus_IZR, !mult_IZR.
  destruct R as [R1 R2]. apply IZR_le in R1, R2. field. lra.
Qed.
Lemma c34_free (g : grid R) x y c : mappable g -> in_grid g y x -> cell_is g y x c -> 1 <= c <= 99 ->
  exists v, updateCell m g x y (mp_free m) = Ok (set_cell g y x v) /\ 0 <= v < c /\
    forall p, bayes c (35 / 65) p -> (IZR v <= 100 * p < IZR v + 1)%R.
Proof.
  intros Hm Hi Hc R. rewrite (updateCell_in m g x y _ c Hm Hi Hc). unfold m. rewrite fuse_free_R by assumption. cbn [bind].
  eexists. split; [reflexivity|]. split; [apply free_lower; assumption|].
  intros p Hp. apply bayes_p in Hp; [|assumption|lra]. apply div_floor; [lia|]. rewrite Hp, minus_IZR, !mult_IZR.
  destruct R as [R1 R2]. apply IZR_le in R1, R2. field. lra.
Qed.

(** ** C70: repeated free observations make a cell permanently free *)
Definition free_step (c : Z) : Z := 3500 * c / (6500 - 30 * c).
Lemma free_steps_19 : forallb (fun c => existsb (fun n => Nat.iter n free_step (Z.of_nat c) =? 0) (seq 0 16)) (seq 0 100) = true.
Proof. vm_compute. reflexivity. Qed.
Lemma set_cell_twice (g : grid R) i j v w : set_cell (set_cell g i j v) i j w = set_cell g i j w.
Proof.
  unfold set_cell, set_data. cbn [g_xsize g_ysize g_res g_xmin g_ymin g_xmax g_ymax g_data]. f_equal.
  generalize (Z.to_nat (i * g_xsize g + j)). intros k. generalize (g_data g) as l. revert k.
  induction k as [|k IH]; intros [|a l]; cbn; try reflexivity. f_equal. apply IH.
Qed.
Lemma free_iter n : forall (g : grid R) x y c, mappable g -> in_grid g y x -> cell_is g y x c -> 0 <= c <= 99 ->
  (forall k, (k < n)%nat -> Nat.iter k free_step c <> 0) ->
  exists g', free_all m g (repeat (x, y) n) = Ok g' /\ cell_is g' y x (Nat.iter n free_step c) /\
    (g' = g \/ g' = set_cell g y x (Nat.iter n free_step c)).
Proof.
  induction n as [|n IH]; intros g x y c Hm Hi Hc R N; cbn [repeat free_all].
  - exists g. auto.
  - pose proof (N 0%nat ltac:(lia)) as N0. cbn in N0.
    rewrite (updateCell_in m g x y _ c Hm Hi Hc). unfold m. rewrite fuse_free_R by lia. cbn [bind].
    pose proof (free_lower c ltac:(lia)) as FL. fold (free_step c) in *.
    destruct (IH (set_cell g y x (free_step c)) x y (free_step c)) as (g' & E & C' & D).
    + eapply frame_mappable; [apply set_cell_frame|exact Hm].
    + apply (frame_in_grid g); [apply set_cell_frame|exact Hi].
    + apply set_cell_same; assumption.
    + lia.
    + intros k Hk. rewrite iter_shift. apply (N (S k)). lia.
    + exists g'. rewrite iter_shift in C', D. split; [exact E|]. split; [exact C'|]. right.
      change (Nat.iter (S n) free_step c) with (free_step (Nat.iter n free_step c)).
      destruct D as [->| ->].
      * f_equal. apply (cell_fun (set_cell g y x (free_step c)) y x); [apply set_cell_same; assumption|exact C'].
      * apply set_cell_twice.
Qed.
Lemma first_zero c : 0 <= c <= 99 -> exists n, (n <= 15)%nat /\ Nat.iter n free_step c = 0 /\ forall k, (k < n)%nat -> Nat.iter k free_step c <> 0.
Proof.
  intros H. pose proof free_steps_19 as A. rewrite forallb_forall in A.
  specialize (A (Z.to_nat c)). rewrite Z2Nat.id in A by lia. specialize (A ltac:(apply in_seq; lia)).
  apply existsb_exists in A. destruct A as (n & Hn & E). apply Z.eqb_eq in E. apply in_seq in Hn.
  assert (G : forall n, Nat.iter n free_step c = 0 -> exists n', (n' <= n)%nat /\ Nat.iter n' free_step c = 0 /\ forall k, (k < n')%nat -> Nat.iter k free_step c <> 0).
  { clear. induction n as [n IH] using lt_wf_ind. intros E.
    assert (D : (exists k, (k < n)%nat /\ Nat.iter k free_step c = 0) \/ forall k, (k < n)%nat -> Nat.iter k free_step c <> 0).
    { clear. induction n as [|n [(k & K1 & K2)|IH]].
      - right. intros; lia.
      - left. exists k. split; [lia|exact K2].
      - destruct (Z.eq_dec (Nat.iter n free_step c) 0); [left; exists n; split; [lia|assumption]|].
        right. intros k Hk. destruct (Nat.eq_dec k n); [subst; assumption|apply IH; lia]. }
    destruct D as [(k & K1 & K2)|D].
    - destruct (IH k K1 K2) as (n' & ? & ? & ?). exists n'. split; [lia|]. auto.
    - exists n. auto. }
  destruct (G n E) as (n' & ? & ? & ?). exists n'. split; [lia|]. auto.
Qed.
Lemma c70_erode (g : grid R) x y c : mappable g -> in_grid g y x -> cell_is g y x c -> 0 <= c <= 99 ->
  exists n g', (n <= 15)%nat /\ free_all m g (repeat (x, y) n) = Ok g' /\ cell_is g' y x 0.
Proof.
  intros Hm Hi Hc R. destruct (first_zero c R) as (n & Hn & Z0 & N).
  destruct (free_iter n g x y c Hm Hi Hc R N) as (g' & E & C' & _). exists n, g'. rewrite Z0 in C'. auto.
Qed.
End C34.

(** ** C69: every beam that leaves the robot's cell frees the robot's cell *)
Lemma seen_base {T} {NT : Num T} (m : mapper T) ri rj ends : Forall (leaves ri rj) ends -> forall v v',
  seen m ri rj ri rj ends v v' -> free_times m (length ends) v = Ok v'.
Proof.
  induction ends as [|e ends IH]; intros F v v' H; cbn [seen length free_times] in *; [congruence|].
  inversion F as [|? ? (ei & ej & -> & N) F']; subst. destruct H as (w & H1 & H2). unfold seen_by in H1.
  assert (O : on_ray rj ri ej ei rj ri) by (apply on_ray_start; congruence).
  destruct H1 as [[_ E]|[[E _]|[E _]]]; [|congruence|tauto].
  rewrite E. cbn [bind]. apply IH; assumption.
Qed.
Lemma beam_ends_fun {T} {NT : Num T} (m : mapper T) g s pose e1 e2 : beam_ends m g s pose e1 -> beam_ends m g s pose e2 -> e1 = e2.
Proof.
  intros [L1 H1] [L2 H2]. apply nth_ext_eq; [congruence|]. intros k.
  destruct (nth_error (s_ranges s) k) as [r|] eqn:E.
  - assert (K : (k < length (s_ranges s))%nat) by (apply nth_error_Some; congruence).
    destruct (nth_error e1 k) as [a|] eqn:A; [|apply nth_error_None in A; lia].
    destruct (nth_error e2 k) as [c|] eqn:C; [|apply nth_error_None in C; lia].
    f_equal. destruct (H1 k r a E A) as [[G ->]|[G (i & j & W & D)]], (H2 k r c E C) as [[G' ->]|[G' (i' & j' & W' & D')]]; try congruence.
    rewrite W in W'. injection W' as <- <-. destruct D as [[? ->]|[? ->]], D' as [[? ->]|[? ->]]; tauto.
  - apply nth_error_None in E. transitivity (@None (option (Z * Z))); [|symmetry]; apply nth_error_None; lia.
Qed.
Lemma c69_base {T} {NT : Num T} (m : mapper T) g s pose g' ri rj c ends : mappable g -> updateMap m g s pose = Ok (true, g') ->
  world2Grid g (v0 pose) (v1 pose) = Ok (ri, rj) -> beam_ends m g s pose ends -> Forall (leaves ri rj) ends ->
  cell_is g ri rj c -> exists c', free_times m (length (s_ranges s)) c = Ok c' /\ cell_is g' ri rj c'.
Proof.
  intros Hm H W HE F Hc. destruct (c31_effect m g s pose g' Hm H) as (_ & i & j & ends' & W' & Hr & HE' & Eff).
  rewrite W in W'. injection W' as <- <-. pose proof (beam_ends_fun _ _ _ _ _ _ HE HE') as <-.
  destruct (Eff ri rj c Hr Hc) as (v & S1 & S2). exists v. split; [|exact S2].
  destruct HE as [<- _]. apply seen_base with (ri := ri) (rj := rj); assumption.
Qed.
Lemma c35_gate (s : scan R) r : gated s r = true <-> (s_rmax s < r \/ r < s_rmin s)%R.
Proof.
  unfold gated. cbn [nlt RNum]. rewrite Bool.orb_true_iff. 
  split; intros [H|H]; [left; apply Rltb_true|right; apply Rltb_true|left; apply Rltb_true|right; apply Rltb_true]; exact H.
Qed.
Lemma c70_stays (L : libm) Tbs (g g' : grid b64) h i j : explog_rules L -> mappable g ->
  @map_run b64 (F64 L) (@mapper_ctor b64 (F64 L) Tbs) g h = Ok g' ->
  in_grid g i j -> cell_is g i j 0 -> cell_is g' i j 0.
Proof. intros HL Hm H Hi Hc. apply (c32_absorbing L Tbs g g' h i j 0); auto. Qed.
Lemma c69_witness L : explog_rules L -> trig0 L ->
  exists g' v0 v3, @updateMap b64 (F64 L) (@mapper_ctor b64 (F64 L) (mount (b 5 0))) (map10 0 50) (scan1 (b 1 0)) pose00 = Ok (true, g') /\
    @fuse b64 (F64 L) (@mapper_ctor b64 (F64 L) (mount (b 5 0))) (mp_free (@mapper_ctor b64 (F64 L) (mount (b 5 0)))) 50 = Ok v0 /\
    cell_is g' 0 0 v0 /\ v3 = v0 /\ cell_is g' 0 3 v3.
Proof.
  intros HL HT.
  assert (HE : @beam_ends b64 (F64 L) (@mapper_ctor b64 (F64 L) (mount (b 5 0))) (map10 0 50) (scan1 (b 1 0)) pose00 [Some (0, 6)]).
  { split; [reflexivity|]. intros [|[|k]] r e H1 H2; cbn in H1, H2; try discriminate.
    injection H1 as <-. injection H2 as <-. apply beam10; [exact HT|right; left; reflexivity]. }
  destruct (c32_total L (mount (b 5 0)) (map10 0 50) (scan1 (b 1 0)) pose00 0 0 [Some (0, 6)] HL) as (g' & E & _).
  { apply map10_mappable. } { apply map10_known; lia. } { apply pose00_cell. } { apply in10; lia. } { exact HE. }
  destruct (@c31_effect b64 (F64 L) _ _ _ _ _ (map10_mappable 0 50) E) as (_ & ri & rj & ends & W & _ & HE' & Eff).
  rewrite pose00_cell in W. injection W as <- <-. pose proof (@beam_ends_fun b64 (F64 L) _ _ _ _ _ _ HE HE') as <-.
  assert (G : forall j, (j = 0 \/ j = 3) -> exists v', @fuse b64 (F64 L) (@mapper_ctor b64 (F64 L) (mount (b 5 0))) (mp_free (@mapper_ctor b64 (F64 L) (mount (b 5 0)))) 50 = Ok v' /\ cell_is g' 0 j v').
  { intros j Hj. destruct (Eff 0 j 50) as (v & S1 & S2); [apply in10; lia|destruct Hj; subst; reflexivity|].
    exists v. split; [|exact S2]. cbn [seen] in S1. destruct S1 as (w & S1 & ->). unfold seen_by in S1.
    assert (O : on_ray 0 0 6 0 j 0) by (destruct Hj; subst; cbv; intuition congruence).
    destruct S1 as [[_ S1]|[[S1 _]|[S1 _]]]; [exact S1|injection S1; lia|tauto]. }
  destruct (G 0 ltac:(auto)) as (a & A1 & A2). destruct (G 3 ltac:(auto)) as (c & C1 & C2).
  assert (c = a) by congruence. subst c. exists g', a, a. auto.
Qed.
