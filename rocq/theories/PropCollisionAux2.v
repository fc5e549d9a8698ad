(** Proofs of the statements of PropCollision.v, continued. *)
From Coq Require Import Reals Lra ZArith Lia List ZifyBool.
From Flocq Require Import Core.Raux IEEE754.BinarySingleNaN.
From Verif Require Import Outcome Num Float64 FloatLemmas GridModel GridProofs GridFloat CollisionModel Spec CircleProofs CollisionProofs PropCollisionAux.
Import ListNotations.
Ltac Zify.zify_post_hook ::= idtac.
Local Open Scope Z_scope.

(** ** Each cell of a circle is checked exactly once *)
Lemma walk_keys fuel r : forall X y err a b, winv r X y err -> In (a, b) (walk fuel X y err) -> y - X <= b - a.
Proof.
  induction fuel as [|f IH]; intros X y err a b HI Hin; [destruct Hin|].
  cbn [walk] in Hin. destruct (Z.ltb_spec 0 X); [|destruct Hin].
  pose proof (wstep_inv r X y err HI ltac:(lia)) as Hs.
  destruct Hin as [E|Hin]; [injection E as <- <-; lia|].
  destruct (wstep X y err) as [[X' y'] e']. destruct Hs as (I' & L1 & L2 & L3).
  specialize (IH X' y' e' a b I' Hin). lia.
Qed.
Lemma walk_nodup fuel r : forall X y err, winv r X y err -> NoDup (walk fuel X y err).
Proof.
  induction fuel as [|f IH]; intros X y err HI; [constructor|].
  cbn [walk]. destruct (Z.ltb_spec 0 X); [|constructor].
  pose proof (wstep_inv r X y err HI ltac:(lia)) as Hs.
  destruct (wstep X y err) as [[X' y'] e']. destruct Hs as (I' & L1 & L2 & L3).
  constructor; [|apply IH; assumption].
  intros Hin. apply (walk_keys f r X' y' e' X y I') in Hin. lia.
Qed.
Lemma rot4_nodup l : (forall X y, In (X, y) l -> 1 <= X /\ 0 <= y) -> NoDup l -> NoDup (flat_map rot4 l).
Proof.
  induction l as [|[X y] l IH]; intros Hq Hn; [constructor|].
  inversion Hn as [|? ? Hni Hn']; subst.
  assert (HX : 1 <= X /\ 0 <= y) by (apply Hq; left; reflexivity).
  assert (IH' : NoDup (flat_map rot4 l)) by (apply IH; [intros; apply Hq; right; assumption|assumption]).
  assert (D : forall a b, In (a, b) (flat_map rot4 l) ->
     exists X' y', In (X', y') l /\ 1 <= X' /\ 0 <= y' /\
       ((a, b) = (X', y') \/ (a, b) = (- y', X') \/ (a, b) = (- X', - y') \/ (a, b) = (y', - X'))).
  { intros a b H. apply in_flat_map in H. destruct H as [[X' y'] [H1 H2]].
    exists X', y'. split; [assumption|]. destruct (Hq X' y' (or_intror H1)). split; [assumption|]. split; [assumption|].
    cbn [rot4] in H2. destruct H2 as [E|[E|[E|[E|[]]]]]; rewrite <- E; auto. }
  assert (Key : forall X' y', In (X', y') l -> (X', y') <> (X, y)) by (intros X' y' H E; rewrite E in H; contradiction).
  cbn [flat_map rot4 app].
  assert (N : forall p, In p (rot4 (X, y)) -> ~ In p (flat_map rot4 l)).
  { intros [a b] Hp Hin. apply D in Hin. destruct Hin as (X' & y' & Hl & Q1 & Q2 & E').
    apply Key in Hl. cbn [rot4] in Hp.
    assert (XX : X' = X /\ y' = y); [|apply Hl; f_equal; lia].
    destruct Hp as [E|[E|[E|[E|[]]]]]; injection E as <- <-;
      destruct E' as [E'|[E'|[E'|E']]]; injection E' as E1 E2; lia. }
  pose proof (N _ (or_introl eq_refl)) as N1. pose proof (N _ (or_intror (or_introl eq_refl))) as N2.
  pose proof (N _ (or_intror (or_intror (or_introl eq_refl)))) as N3.
  pose proof (N _ (or_intror (or_intror (or_intror (or_introl eq_refl))))) as N4.
  repeat constructor; try assumption; intros Hin; cbn [In] in Hin;
    repeat match goal with H : _ \/ _ |- _ => destruct H as [H|H] end;
    try contradiction; match goal with H : (_, _) = (_, _) |- _ => injection H as E1 E2 end; lia.
Qed.
Lemma ring_nodup r : 1 <= r -> NoDup (ring r).
Proof.
  intros Hr. unfold ring. apply rot4_nodup.
  - intros X y H. apply (walk_sound r) in H; [lia|apply winv_start; assumption].
  - apply (walk_nodup _ r). apply winv_start; assumption.
Qed.

(** Checking the cells at the offsets of a list one after the other, stopping at a hit. *)
Fixpoint visit {T} {NT : Num T} (c : collision T) (cf : cfg) (g : grid T) (l : list (Z * Z)) (s : cst)
  : res (bool * cst) :=
  match l with
  | [] => Ok (false, s)
  | (a, b) :: l' => orelse (check_at c cf g (cx cf + a) (cy cf + b) s) (fun s => visit c cf g l' s)
  end.

Section Visit.
Context {T : Type} {NT : Num T}.
Implicit Types (c : collision T) (g : grid T).

Lemma visit_scan c g cf l s : good_grid g -> good_cfg cf -> Forall small l ->
  visit c cf g l s = Ok (scan c g cf l s).
Proof.
  intros HG HC. revert s. induction l as [|[a b] l IH]; intros s Hl; [reflexivity|].
  inversion Hl; subst. cbn [visit]. apply orelse_scan1; auto.
Qed.

Lemma c13_visits c g i j rb rc rm r s :
  ordinary_map g -> 0 <= i <= 2 ^ 30 -> 0 <= j <= 2 ^ 30 -> - 46340 <= rc <= 46340 ->
  - 46340 <= rb -> rm <= 46340 -> 1 <= r <= 46340 ->
  exists l, NoDup l /\ (forall a b, In (a, b) l <-> on_circle r a b) /\
    bresenhamCircle c (mkCfg rb rc rm j i) g r s = visit c (mkCfg rb rc rm j i) g l s /\
    is_ok (bresenhamCircle c (mkCfg rb rc rm j i) g r s) = true.
Proof.
  intros HG Hi Hj Hc Hb Hm Hr. apply ordinary_good in HG.
  assert (HC : good_cfg (mkCfg rb rc rm j i)) by (unfold good_cfg, RMAX; cbn [cx cy r_col r_max r_bnd]; lia).
  exists (ring r). split; [apply ring_nodup; lia|]. split.
  - intros a b. rewrite on_circle_ring_set. apply ring_exact. lia.
  - rewrite circle_scan by (try assumption; unfold RMAX; lia).
    unfold ringl. destruct (Z.leb_spec r 0); [lia|]. split; [|reflexivity].
    symmetry. apply visit_scan; try assumption.
    apply Forall_forall. intros [a b] Hin. unfold small, RMAX, two31. cbn [fst snd].
    pose proof (ring_bound r a b ltac:(lia) Hin). pose proof (ring_sq_bound r a b ltac:(lia) Hin).
    repeat split; nia.
Qed.

(** Cells strictly inside the boundary circle are not looked at. *)
Lemma c15_blind c g px py i j rb rc rm :
  ordinary_map g -> robot_at c g px py i j rb rc rm -> 1 <= rb ->
  (forall a b, occupied g (c_occ c) (i + b) (j + a) -> a ^ 2 + b ^ 2 <= (rb - 1) ^ 2) ->
  collisionCheck c g px py = Ok false /\ minDistance c g px py = Ok (NoneMsg, nmax).
Proof.
  intros HG HR Hb Hin.
  assert (N : forall a b, scanned rb rm a b -> ~ occupied g (c_occ c) (i + b) (j + a)).
  { intros a b (r & R1 & R2 & R3) O. apply Hin in O.
    assert (I : inside r a b). { apply near_inside; [lia|]. rewrite !Z.pow_2_r in *. nia. }
    unfold on_circle, inside in *. rewrite !Z.pow_2_r in R3. lia. }
  destruct (queries c g px py i j rb rc rm HG HR) as
    [(H & A & B & D)|(_ & A & [(_ & B & D)|(a & b & S & O & _)])].
  - destruct H as (a & b & S & O & _). destruct (N a b S O).
  - auto.
  - destruct (N a b S O).
Qed.

(** ** Threshold *)
Lemma c16_no_occupied c g px py i j rb rc rm :
  ordinary_map g -> robot_at c g px py i j rb rc rm ->
  (forall v, In v (g_data g) -> nlt (nofZ v / nofZ 100)%num (c_occ c) = true) ->
  collisionCheck c g px py = Ok false /\ minDistance c g px py = Ok (NoneMsg, nmax).
Proof.
  intros HG HR Hv.
  assert (N : forall i j, ~ occupied g (c_occ c) i j).
  { intros i' j' (_ & v & V1 & V2). apply nth_error_In in V1. rewrite Hv in V2 by assumption. discriminate. }
  destruct (queries c g px py i j rb rc rm HG HR) as
    [(H & A & B & D)|(_ & A & [(_ & B & D)|(a & b & S & O & _)])].
  - destruct H as (a & b & S & O & _). destruct (N _ _ O).
  - auto.
  - destruct (N _ _ O).
Qed.

Lemma c16_mono b s o t1 t2 g px py i j rb rc rm :
  ordinary_map g -> robot_at (mkCollision b s o t2) g px py i j rb rc rm ->
  (forall x, nlt x t1 = true -> nlt x t2 = true) ->
  collisionCheck (mkCollision b s o t2) g px py = Ok true ->
  collisionCheck (mkCollision b s o t1) g px py = Ok true.
Proof.
  intros HG HR Ht H2.
  destruct (c10_exact _ g px py i j rb rc rm HG HR) as (res2 & E2 & Hres2).
  assert (HR1 : robot_at (mkCollision b s o t1) g px py i j rb rc rm) by exact HR.
  destruct (c10_exact _ g px py i j rb rc rm HG HR1) as (res1 & E1 & Hres1).
  rewrite E1. f_equal. apply Hres1. rewrite H2 in E2. injection E2 as <-.
  destruct Hres2 as [Hres2 _]. destruct (Hres2 eq_refl) as (x & y & A & (B & v & V1 & V2) & D).
  exists x, y. split; [assumption|]. split; [|assumption]. split; [assumption|].
  exists v. split; [assumption|]. cbn [c_occ] in *.
  destruct (nlt _ t1) eqn:E; [|reflexivity]. apply Ht in E. congruence.
Qed.

Lemma c17_iff (b s o t : T) :
  ((exists c, collision_ctor b s o t = Ok c) <->
   nlt s b = false /\ nlt (nofZ 100) t = false /\ nlt t n0 = false) /\
  (forall c, collision_ctor b s o t = Ok c -> c = mkCollision b s o t) /\
  (is_ok (collision_ctor b s o t) = false -> collision_ctor b s o t = Throw EInvalidArgument).
Proof.
  unfold collision_ctor. destruct (nlt s b), (nlt (nofZ 100) t), (nlt t n0); cbn [orb];
    (split; [split; [intros [c H]; discriminate H|intros (A & B & C); discriminate]|]) ||
    (split; [split; [auto|intros _; eexists; reflexivity]|]);
    (split; [intros c H; try discriminate H; injection H as <-; reflexivity|]); intros; try reflexivity; discriminate.
Qed.
End Visit.

(** ** Binary64 comparisons *)
Lemma Bltb_nlt_trans (x y z : b64) : is_nan z = false -> Bltb x y = true -> Bltb z y = false -> Bltb x z = true.
Proof.
  destruct (is_finite x && is_finite y && is_finite z)%bool eqn:F.
  - apply andb_prop in F. destruct F as [F Fz]. apply andb_prop in F. destruct F as [Fx Fy].
    rewrite !Bltb_R by assumption. intros _.
    destruct (Rlt_bool_spec (B2R x) (B2R y)); [|discriminate].
    destruct (Rlt_bool_spec (B2R z) (B2R y)); [discriminate|].
    intros _ _. apply Rlt_bool_true. lra.
  - destruct x as [[]|[]| |[] mx ex px], y as [[]|[]| |[] my ey py]; cbn in F |- *;
      try discriminate; destruct z as [[]|[]| |[] mz ez pz]; try discriminate;
      cbn; intros; try discriminate; try reflexivity.
Qed.
Lemma Bltb_Bleb_trans (x y z : b64) : Bltb x y = true -> Bleb y z = true -> Bltb x z = true.
Proof.
  destruct (is_finite x && is_finite y && is_finite z)%bool eqn:F.
  - apply andb_prop in F. destruct F as [F Fz]. apply andb_prop in F. destruct F as [Fx Fy].
    rewrite !Bltb_R, Bleb_R by assumption.
    destruct (Rlt_bool_spec (B2R x) (B2R y)); [|discriminate].
    destruct (Rle_bool_spec (B2R y) (B2R z)); [|discriminate].
    intros _ _. apply Rlt_bool_true. lra.
  - destruct x as [[]|[]| |[] mx ex px], y as [[]|[]| |[] my ey py]; cbn in F |- *;
      try discriminate; destruct z as [[]|[]| |[] mz ez pz]; try discriminate;
      cbn; intros; try discriminate; try reflexivity.
Qed.

Lemma c16_unknown_b64 (L : libm) (c : collision b64) (g : grid b64) b s o t i j :
  @collision_ctor b64 (F64 L) b s o t = Ok c -> is_nan t = false -> Forall is_byte (g_data g) ->
  @occupied b64 (F64 L) g (c_occ c) i j ->
  exists v, nth_error (g_data g) (Z.to_nat (i * g_xsize g + j)) = Some v /\ 0 <= v <= 127.
Proof.
  intros Hc Ht Hb (_ & v & V1 & V2). exists v. split; [assumption|].
  rewrite Forall_forall in Hb. pose proof (Hb v (nth_error_In _ _ V1)) as Bv. unfold is_byte in Bv.
  destruct (Z_lt_le_dec v 0); [exfalso|lia].
  destruct (@c17_iff b64 (F64 L) b s o t) as (I & E & _). specialize (E c Hc). subst c.
  cbn [c_occ] in V2. destruct I as [I _]. destruct (I (ex_intro _ _ Hc)) as (_ & _ & I3).
  pose proof (cell_val_b64_neg L v ltac:(lia)) as N. destruct (Z.ltb_spec v 0); [|lia].
  cbn [nlt F64] in *. unfold cell_val in N. cbn [ndiv nofZ F64] in *.
  rewrite (Bltb_nlt_trans _ _ t Ht N I3) in V2. discriminate.
Qed.
Lemma c16_unknown_R (c : collision R) (g : grid R) b s o t i j :
  collision_ctor b s o t = Ok c -> occupied g (c_occ c) i j ->
  exists v, nth_error (g_data g) (Z.to_nat (i * g_xsize g + j)) = Some v /\ 0 <= v.
Proof.
  intros Hc (_ & v & V1 & V2). exists v. split; [assumption|].
  destruct (c17_iff b s o t) as (I & E & _). specialize (E c Hc). subst c.
  destruct I as [I _]. destruct (I (ex_intro _ _ Hc)) as (_ & _ & I3).
  cbn [c_occ nlt ndiv nofZ RNum] in *. unfold n0 in I3. cbn [nofZ RNum] in I3. apply Rltb_false in I3, V2.
  apply le_IZR. lra.
Qed.
Lemma c16_mono_R b s o t1 t2 (g : grid R) px py i j rb rc rm :
  ordinary_map g -> robot_at (mkCollision b s o t2) g px py i j rb rc rm -> (t1 <= t2)%R ->
  collisionCheck (mkCollision b s o t2) g px py = Ok true ->
  collisionCheck (mkCollision b s o t1) g px py = Ok true.
Proof.
  intros HG HR Ht. apply (c16_mono b s o t1 t2 g px py i j rb rc rm HG HR).
  intros x. cbn [nlt RNum]. rewrite !Rltb_true. lra.
Qed.
Lemma c16_mono_b64 (L : libm) b s o t1 t2 (g : grid b64) px py i j rb rc rm :
  ordinary_map g -> @robot_at b64 (F64 L) (mkCollision b s o t2) g px py i j rb rc rm -> @nle b64 (F64 L) t1 t2 = true ->
  @collisionCheck b64 (F64 L) (mkCollision b s o t2) g px py = Ok true ->
  @collisionCheck b64 (F64 L) (mkCollision b s o t1) g px py = Ok true.
Proof.
  intros HG HR Ht. apply (@c16_mono b64 (F64 L) b s o t1 t2 g px py i j rb rc rm HG HR).
  intros x H. cbn [nlt nle F64] in *. eapply Bltb_Bleb_trans; eassumption.
Qed.
Lemma c16_disabled_b64 (L : libm) (c : collision b64) (g : grid b64) px py i j rb rc rm :
  ordinary_map g -> @robot_at b64 (F64 L) c g px py i j rb rc rm -> Forall is_byte (g_data g) ->
  @nlt b64 (F64 L) (@ndiv b64 (F64 L) (@nofZ b64 (F64 L) 127) (@nofZ b64 (F64 L) 100)) (c_occ c) = true ->
  @collisionCheck b64 (F64 L) c g px py = Ok false /\
  @minDistance b64 (F64 L) c g px py = Ok (NoneMsg, @nmax b64 (F64 L)).
Proof.
  intros HG HR Hb Ht. apply (@c16_no_occupied b64 (F64 L) c g px py i j rb rc rm HG HR).
  intros v Hv. rewrite Forall_forall in Hb. specialize (Hb v Hv). unfold is_byte in Hb.
  destruct (Z.eq_dec v 127) as [->|N]; [exact Ht|].
  pose proof (cell_val_b64_strict L v 127 ltac:(lia) ltac:(lia)) as S. destruct (Z.ltb_spec v 127); [|lia].
  cbn [nlt F64] in *. eapply Bltb_trans; [exact S|exact Ht].
Qed.
Lemma c16_disabled_R (c : collision R) (g : grid R) px py i j rb rc rm :
  ordinary_map g -> robot_at c g px py i j rb rc rm -> Forall is_byte (g_data g) -> (127 / 100 < c_occ c)%R ->
  collisionCheck c g px py = Ok false /\ minDistance c g px py = Ok (NoneMsg, nmax).
Proof.
  intros HG HR Hb Ht. apply (c16_no_occupied c g px py i j rb rc rm HG HR).
  intros v Hv. rewrite Forall_forall in Hb. specialize (Hb v Hv). unfold is_byte in Hb.
  cbn [nlt ndiv nofZ RNum]. apply Rltb_true. assert (IZR v <= 127)%R by (apply IZR_le; lia). lra.
Qed.

Lemma c17_nan (L : libm) (b s o t : b64) :
  (is_nan b = true \/ is_nan s = true \/ @nlt b64 (F64 L) s b = false) ->
  (is_nan t = true \/ (@nlt b64 (F64 L) (@nofZ b64 (F64 L) 100) t = false /\ @nlt b64 (F64 L) t (@nofZ b64 (F64 L) 0) = false)) ->
  @collision_ctor b64 (F64 L) b s o t = Ok (mkCollision b s o t).
Proof.
  intros H1 H2. unfold collision_ctor. cbn [nlt nofZ F64] in *. unfold n0. cbn [nofZ F64].
  assert (A : Bltb s b = false).
  { destruct H1 as [H|[H|H]]; [destruct b; try discriminate; destruct s as [[]|[]| |[]]; reflexivity
      |destruct s; try discriminate; reflexivity|assumption]. }
  rewrite A.
  assert (B : (Bltb (b64_ofZ 100) t || Bltb t (b64_ofZ 0))%bool = false).
  { destruct H2 as [H|[H H']]; [destruct t; try discriminate; reflexivity|rewrite H, H'; reflexivity]. }
  rewrite B. reflexivity.
Qed.
Lemma c17_nan_thr (L : libm) (g : grid b64) t i j : is_nan t = true -> sized g ->
  (@occupied b64 (F64 L) g t i j <-> in_grid g i j).
Proof.
  intros Ht Hs. unfold occupied. split; [intros [H _]; exact H|]. intros H. split; [exact H|].
  destruct (nth_error (g_data g) (Z.to_nat (i * g_xsize g + j))) as [v|] eqn:E.
  - exists v. split; [reflexivity|]. cbn [nlt F64]. destruct t; try discriminate.
    destruct (@ndiv b64 (F64 L) (@nofZ b64 (F64 L) v) (@nofZ b64 (F64 L) 100)) as [[]|[]| |[]]; reflexivity.
  - apply nth_error_None in E. unfold sized, cells, lenZ, in_grid in *. nia.
Qed.

(** ** The reals: where robot_at holds *)
Lemma robot_at_R (c : collision R) (g : grid R) px py :
  (0 < g_res g)%R -> 0 < g_xsize g <= 2 ^ 30 -> 0 < g_ysize g <= 2 ^ 30 -> on_map g px py ->
  let fl := fun x => Zfloor (x / g_res g) in
  - 46340 <= fl (c_brad c) -> - 46340 <= fl (c_brad c + c_othr c)%R <= 46340 -> fl (c_srad c) <= 46340 ->
  fl (c_brad c) <= 46340 -> - 46340 <= fl (c_srad c) ->
  exists i j, in_grid g i j /\ in_cell g i j px py /\
    robot_at c g px py i j (fl (c_brad c)) (fl (c_brad c + c_othr c)%R) (fl (c_srad c)).
Proof.
  intros Hr Hx Hy [Mx My] fl H1 H2 H3 H4 H5.
  destruct (world2Grid_on_map g px py Hr) as (i & j & W & Wi & Wj & Cx & Cy & _); try assumption;
    try (unfold two32; lia).
  exists i, j. split; [split; assumption|]. split; [split; assumption|].
  unfold robot_at. rewrite W. cbn [ndiv nadd RNum]. fold fl.
  rewrite !to_int_floor. unfold fl in *.
  split; [reflexivity|].
  assert (R : forall z, - 46340 <= z <= 46340 -> (if (- two31 <=? z) && (z <? two31) then Ok z else UB UFloatCast) = Ok z).
  { intros z Hz. destruct ((- two31 <=? z) && (z <? two31))%bool eqn:E; [reflexivity|unfold two31 in E; lia]. }
  rewrite !R by lia. repeat split; lia.
Qed.

Lemma c10_real (c : collision R) (g : grid R) px py :
  (0 < g_res g)%R -> 0 < g_xsize g <= 2 ^ 30 -> 0 < g_ysize g <= 2 ^ 30 -> cells g <= 2 ^ 32 -> sized g ->
  on_map g px py ->
  let fl := fun x => Zfloor (x / g_res g) in
  - 46340 <= fl (c_brad c) <= 46340 -> - 46340 <= fl (c_brad c + c_othr c)%R <= 46340 -> - 46340 <= fl (c_srad c) <= 46340 ->
  exists i j res, in_grid g i j /\ in_cell g i j px py /\ collisionCheck c g px py = Ok res /\
    (res = true <-> exists a b, scanned (fl (c_brad c)) (fl (c_srad c)) a b /\
       occupied g (c_occ c) (i + b) (j + a) /\ a ^ 2 + b ^ 2 <= fl (c_brad c + c_othr c)%R ^ 2).
Proof.
  intros Hr Hx Hy Hc Hs Hm fl H1 H2 H3.
  destruct (robot_at_R c g px py Hr Hx Hy Hm) as (i & j & I & C & RA); try tauto.
  destruct (c10_exact c g px py i j _ _ _ ltac:(unfold ordinary_map; repeat split; first [assumption | lia]) RA) as (res & E & X).
  exists i, j, res. auto.
Qed.

Lemma c17_iff2 (L : libm) (b s o t : b64) :
  (Bltb s b || (Bltb (b64_ofZ 100) t || Bltb t (b64_ofZ 0)))%bool = false ->
  @collision_ctor b64 (F64 L) b s o t = Ok (mkCollision b s o t).
Proof.
  intros H. unfold collision_ctor. unfold n0. cbn [nlt nofZ F64].
  destruct (Bltb s b); [discriminate|]. destruct (_ || _)%bool; [discriminate|reflexivity].
Qed.

(** ** Concrete 11 x 11 maps in binary64 with one occupied cell; unit resolution, robot at (5.5, 5.5). *)
Definition one_hot (i j : Z) : list Z :=
  map (fun k => if Z.of_nat k =? i * 11 + j then 100 else 0) (seq 0 121).
Definition map11 (i j : Z) : grid b64 :=
  mkGrid 11 11 (b64_ofZ 1) (b64_ofZ 0) (b64_ofZ 0) (b64_ofZ 11) (b64_ofZ 11) (one_hot i j).
Definition b55 : b64 := b64_scaled 11 (-1).
Definition cfg11 (rb rc rm : Z) : collision b64 :=
  mkCollision (b64_ofZ rb) (b64_ofZ rm) (b64_ofZ (rc - rb)) (b64_scaled 1 (-1)).

Lemma robot11 (L : libm) i j rb rc rm :
  In rb [1; 2; 3] -> In rc [1; 2; 3; 4; 5] -> In rm [1; 2; 3; 4; 5] ->
  @robot_at b64 (F64 L) (cfg11 rb rc rm) (map11 i j) b55 b55 5 5 rb rc rm.
Proof.
  intros H1 H2 H3. unfold robot_at.
  assert (W : @world2Grid b64 (F64 L) (map11 i j) b55 b55 = Ok (5, 5)) by (vm_compute; reflexivity).
  rewrite W. split; [reflexivity|].
  cbn [In] in *.
  destruct H1 as [<-|[<-|[<-|[]]]]; destruct H2 as [<-|[<-|[<-|[<-|[<-|[]]]]]];
    destruct H3 as [<-|[<-|[<-|[<-|[<-|[]]]]]];
    (split; [vm_compute; reflexivity|]); (split; [vm_compute; reflexivity|]); (split; [vm_compute; reflexivity|]); lia.
Qed.
Lemma map11_ordinary i j : ordinary_map (map11 i j).
Proof. unfold ordinary_map, sized, cells, lenZ, map11, one_hot. cbn [g_xsize g_ysize g_data]. rewrite map_length. rewrite seq_length. lia. Qed.
Lemma map11_occupied (L : libm) i j : 0 <= i < 11 -> 0 <= j < 11 ->
  @occupied b64 (F64 L) (map11 i j) (b64_scaled 1 (-1)) i j.
Proof.
  intros Hi Hj. split; [unfold in_grid; cbn; lia|]. exists 100. split; [|vm_compute; reflexivity].
  cbn [map11 g_data g_xsize]. unfold one_hot.
  rewrite (map_nth_error (fun k => if Z.of_nat k =? i * 11 + j then 100 else 0) (Z.to_nat (i * 11 + j)) (seq 0 121) (d := Z.to_nat (i * 11 + j))).
  - rewrite Z2Nat.id by lia. rewrite Z.eqb_refl. reflexivity.
  - rewrite (nth_error_nth' (seq 0 121) O); [|rewrite seq_length; lia]. rewrite seq_nth by lia. reflexivity.
Qed.

(** The expectation of C15, refuted at two kinds of cells. *)
Lemma c15_refuted : forall L : libm, exists (c : collision b64) g px py i j rb rc rm a b,
  (exists bd sr ot oc, @collision_ctor b64 (F64 L) bd sr ot oc = Ok c) /\ ordinary_map g /\
  @robot_at b64 (F64 L) c g px py i j rb rc rm /\ @occupied b64 (F64 L) g (c_occ c) (i + b) (j + a) /\
  rb ^ 2 <= a ^ 2 + b ^ 2 < rc ^ 2 /\ @collisionCheck b64 (F64 L) c g px py = Ok false.
Proof.
  intros L. exists (cfg11 1 4 5), (map11 6 6), b55, b55, 5, 5, 1, 4, 5, 1, 1.
  split; [exists (b64_ofZ 1), (b64_ofZ 5), (b64_ofZ 3), (b64_scaled 1 (-1)); apply c17_iff2; vm_compute; reflexivity|].
  split; [apply map11_ordinary|]. split; [apply robot11; cbn; auto 10|].
  split; [apply (map11_occupied L 6 6); lia|]. split; [lia|]. vm_compute. reflexivity.
Qed.
Lemma c15_refuted_inside : forall L : libm, exists (c : collision b64) g px py i j rb rc rm a b,
  (exists bd sr ot oc, @collision_ctor b64 (F64 L) bd sr ot oc = Ok c) /\ ordinary_map g /\
  @robot_at b64 (F64 L) c g px py i j rb rc rm /\ @occupied b64 (F64 L) g (c_occ c) (i + b) (j + a) /\
  a ^ 2 + b ^ 2 < rb ^ 2 /\ @collisionCheck b64 (F64 L) c g px py = Ok false.
Proof.
  intros L. exists (cfg11 3 4 5), (map11 5 6), b55, b55, 5, 5, 3, 4, 5, 1, 0.
  split; [exists (b64_ofZ 3), (b64_ofZ 5), (b64_ofZ 1), (b64_scaled 1 (-1)); apply c17_iff2; vm_compute; reflexivity|].
  split; [apply map11_ordinary|]. split; [apply robot11; cbn; auto 10|].
  split; [apply (map11_occupied L 5 6); lia|]. split; [lia|]. vm_compute. reflexivity.
Qed.

(** Beyond the proved range the squared collision radius overflows an int. *)
Lemma c13_overflow : forall L : libm,
  @collisionCheck b64 (F64 L) (mkCollision (b64_ofZ 1) (b64_ofZ 1) (b64_ofZ 46340) (b64_scaled 1 (-1))) (map11 5 6) b55 b55
  = UB USignedOverflow.
Proof. intros L. vm_compute. reflexivity. Qed.

(** ** Diagonal cells on no circle *)
Lemma pell_ex N : 0 <= N -> exists x k, N <= k /\ 1 <= k /\ 3 <= x /\ x ^ 2 = 8 * k ^ 2 + 1.
Proof.
  revert N. apply natlike_ind; [exists 3, 1; lia|].
  intros N _ (x & k & H1 & H2 & H3 & H4). exists (3 * x + 8 * k), (x + 3 * k). rewrite Z.pow_2_r in *. nia.
Qed.
Lemma gap_ex N : exists k, N <= k /\ 1 <= k /\ forall r a b, 1 <= r -> Z.abs a = k -> Z.abs b = k -> ~ on_circle r a b.
Proof.
  destruct (pell_ex (Z.max 0 N) ltac:(lia)) as (x & k & H1 & H2 & H3 & H4). exists k. split; [lia|]. split; [assumption|].
  intros r a b Hr Ha Hb [C _]. rewrite Ha, Hb, Z.max_id in C. rewrite !Z.pow_2_r in *.
  assert (E : a * a + b * b = 2 * (k * k)) by (rewrite <- (Z.abs_square a), <- (Z.abs_square b), Ha, Hb; ring). rewrite E in C.
  assert (O : exists s, x = 2 * s + 1).
  { exists (x / 2). pose proof (Z.div_mod x 2 ltac:(lia)). pose proof (Z.mod_pos_bound x 2 ltac:(lia)). nia. }
  destruct O as (s & ->). assert (S : s * s + s = 2 * (k * k)) by lia. assert (k <= s) by nia.
  assert (r <= s \/ s + 1 <= r) as [D|D] by lia; nia.
Qed.
Lemma c15_gaps N : exists k, N <= k /\
  forall (T : Type) (NT : Num T) (c : collision T) g px py i j rb rc rm,
  ordinary_map g -> robot_at c g px py i j rb rc rm ->
  (forall a b, occupied g (c_occ c) (i + b) (j + a) -> Z.abs a = k /\ Z.abs b = k) ->
  collisionCheck c g px py = Ok false.
Proof.
  destruct (gap_ex N) as (k & H1 & _ & H2). exists k. split; [assumption|]. intros T NT c g px py i j rb rc rm HG HR HO.
  destruct (c10_exact c g px py i j rb rc rm HG HR) as (res & E & I). rewrite E. destruct res; [|reflexivity].
  destruct (proj1 I eq_refl) as (a & b & (r & _ & R2 & R3) & O & _). destruct (HO a b O) as [A B]. destruct (H2 r a b R2 A B R3).
Qed.
Lemma map11_only (L : libm) i j u v : 0 <= i < 11 -> 0 <= j < 11 ->
  @occupied b64 (F64 L) (map11 i j) (b64_scaled 1 (-1)) u v -> u = i /\ v = j.
Proof.
  intros Hi Hj [G (w & E & N)]. unfold in_grid in G. cbn [map11 g_data g_xsize g_ysize] in *. unfold one_hot in E.
  assert (K : nth_error (seq 0 121) (Z.to_nat (u * 11 + v)) = Some (Z.to_nat (u * 11 + v))).
  { rewrite (nth_error_nth' (seq 0 121) O); [|rewrite seq_length; lia]. rewrite seq_nth by lia. reflexivity. }
  rewrite (map_nth_error _ _ _ K) in E. injection E as <-. rewrite Z2Nat.id in N by lia.
  destruct (Z.eqb_spec (u * 11 + v) (i * 11 + j)); [lia|]. vm_compute in N. discriminate.
Qed.
