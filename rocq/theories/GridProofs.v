(** Lemmas about the grid model: integer part (any arithmetic) and ideal reals. *)
From Coq Require Import Reals Lra ZArith Lia ZifyBool.
From Flocq Require Import Core.Raux Core.Generic_fmt.
From Verif Require Import Outcome Num GridModel.
Ltac Zify.zify_post_hook ::= Z.div_mod_to_equations.
Local Open Scope Z_scope.

(** Casting helpers *)
Lemma u32_small z : 0 <= z < two32 -> u32 z = z.
Proof. intros; unfold u32; apply Z.mod_small; exact H. Qed.
Lemma u32_range z : 0 <= u32 z < two32.
Proof. unfold u32; apply Z.mod_pos_bound; unfold two32; lia. Qed.
Lemma s32_small z : 0 <= z < two31 -> s32 z = z.
Proof.
  intros; unfold s32. rewrite u32_small by (unfold two31, two32 in *; lia).
  destruct (z <? two31) eqn:E; lia.
Qed.
Lemma int_ck_ok z : - two31 <= z < two31 -> int_ck z = Ok z.
Proof. intros; unfold int_ck. destruct ((- two31 <=? z) && (z <? two31)) eqn:E; [reflexivity|lia]. Qed.
Lemma int_ck_inv z a : int_ck z = Ok a -> a = z /\ - two31 <= z < two31.
Proof.
  unfold int_ck. destruct ((- two31 <=? z) && (z <? two31)) eqn:E; intros; [|discriminate].
  injection H; intros; subst. split; [reflexivity|lia].
Qed.

Lemma nthZ_Some_iff {A} (l : list A) z : (exists v, nthZ l z = Some v) <-> 0 <= z < lenZ l.
Proof.
  unfold nthZ, lenZ. destruct (z <? 0) eqn:E.
  - split; [intros [v H]; discriminate | lia].
  - split.
    + intros [v H]. assert (Z.to_nat z < length l)%nat by (apply nth_error_Some; congruence). lia.
    + intros. destruct (nth_error l (Z.to_nat z)) eqn:F; [eauto|].
      apply nth_error_None in F. lia.
Qed.
Lemma nthZ_None_iff {A} (l : list A) z : nthZ l z = None <-> ~ (0 <= z < lenZ l).
Proof.
  pose proof (nthZ_Some_iff l z). destruct (nthZ l z) eqn:E; split; intros; try congruence.
  - exfalso. apply H0, H. eauto.
  - intros C. apply H in C. destruct C; congruence.
Qed.

Section Generic.
Context {T : Type} {NT : Num T}.
Implicit Type g : grid T.

Lemma row_major_in g i j :
  0 <= i < g_ysize g -> 0 <= j < g_xsize g -> g_xsize g * g_ysize g <= two32 ->
  grid2RowMajor g i j = i * g_xsize g + j /\ 0 <= i * g_xsize g + j < g_xsize g * g_ysize g.
Proof.
  intros Hi Hj Hs. unfold grid2RowMajor.
  assert (0 <= i * g_xsize g) by nia.
  assert (i * g_xsize g + g_xsize g <= g_xsize g * g_ysize g) by nia.
  rewrite (u32_small (i * g_xsize g)) by lia.
  rewrite u32_small by lia. lia.
Qed.

Lemma row_major_fwd g i j :
  0 <= i < g_ysize g -> 0 <= j < g_xsize g -> g_xsize g * g_ysize g <= two32 ->
  rowMajor2Grid g (grid2RowMajor g i j) = Ok (i, j).
Proof.
  intros Hi Hj Hs. destruct (row_major_in g i j Hi Hj Hs) as [-> Hr].
  unfold rowMajor2Grid. destruct (g_xsize g =? 0) eqn:E; [lia|].
  assert (Hd : (i * g_xsize g + j) / g_xsize g = i).
  { rewrite Z.add_comm, Z.div_add by lia. rewrite Z.div_small by lia. lia. }
  rewrite Hd. assert (0 <= i * g_xsize g < two32) by (clear - Hi Hj Hr Hs; nia).
  rewrite (u32_small (i * g_xsize g)) by assumption.
  rewrite u32_small by (unfold two32 in *; lia). f_equal. f_equal. lia.
Qed.

Lemma row_major_bwd g idx :
  0 <= g_xsize g -> g_xsize g * g_ysize g <= two32 -> 0 <= idx < g_xsize g * g_ysize g ->
  exists i j, rowMajor2Grid g idx = Ok (i, j) /\ 0 <= i < g_ysize g /\ 0 <= j < g_xsize g /\
              grid2RowMajor g i j = idx.
Proof.
  intros Hx Hs Hi. assert (g_xsize g <> 0) by (intros C; rewrite C in Hi; lia).
  assert (0 < g_xsize g) by lia.
  unfold rowMajor2Grid. destruct (g_xsize g =? 0) eqn:E; [lia|].
  exists (idx / g_xsize g), (idx mod g_xsize g).
  pose proof (Z.div_mod idx (g_xsize g) ltac:(lia)) as HD.
  pose proof (Z.mod_pos_bound idx (g_xsize g) ltac:(lia)) as HM.
  assert (0 <= idx / g_xsize g) by (apply Z.div_pos; lia).
  assert (idx / g_xsize g < g_ysize g) by (apply Z.div_lt_upper_bound; lia).
  set (q := idx / g_xsize g) in *. set (m := idx mod g_xsize g) in *.
  rewrite (Z.mul_comm q). assert (0 <= g_xsize g * q) by (apply Z.mul_nonneg_nonneg; lia).
  rewrite (u32_small (g_xsize g * q)) by lia.
  replace (idx - g_xsize g * q) with m by lia.
  rewrite u32_small by lia.
  split; [reflexivity|]. split; [lia|]. split; [lia|].
  destruct (row_major_in g q m) as [-> _]; lia.
Qed.

Lemma bounds_nonempty g i j :
  0 < g_xsize g <= two32 -> 0 < g_ysize g <= two32 -> 0 <= i -> 0 <= j ->
  gridBounds g i j = true <-> (i < g_ysize g /\ j < g_xsize g).
Proof.
  intros Hx Hy Hi Hj. unfold gridBounds. rewrite !u32_small by lia. lia.
Qed.

Lemma bounds_empty g i j :
  g_xsize g = 0 -> g_ysize g = 0 -> 0 <= i < two32 -> 0 <= j < two32 ->
  gridBounds g i j = true.
Proof.
  intros Hx Hy Hi Hj. unfold gridBounds. rewrite Hx, Hy.
  change (u32 (0 - 1)) with (two32 - 1). lia.
Qed.

Lemma bounds_idx_nonempty g idx :
  0 < g_xsize g * g_ysize g <= two32 ->
  gridBoundsIdx g idx = true <-> idx < g_xsize g * g_ysize g.
Proof.
  intros Hs. unfold gridBoundsIdx.
  destruct (Z.eq_dec (g_xsize g * g_ysize g) two32) as [E|E].
  - rewrite E. change (u32 (u32 two32 - 1)) with (two32 - 1). lia.
  - rewrite (u32_small (g_xsize g * g_ysize g)) by lia. rewrite u32_small by lia. lia.
Qed.

Lemma bounds_idx_empty g idx :
  g_xsize g * g_ysize g = 0 -> 0 <= idx < two32 -> gridBoundsIdx g idx = true.
Proof.
  intros Hs Hi. unfold gridBoundsIdx. rewrite Hs.
  change (u32 (u32 0 - 1)) with (two32 - 1). lia.
Qed.

(** Reads *)
Definition cell_val (v : Z) : T := (nofZ v / nofZ 100)%num.

Lemma getCellIdx_in g idx :
  0 <= g_xsize g * g_ysize g <= two32 -> lenZ (g_data g) = g_xsize g * g_ysize g ->
  0 <= idx < g_xsize g * g_ysize g ->
  exists v, nthZ (g_data g) idx = Some v /\ getCellIdx g idx = Ok (cell_val v).
Proof.
  intros Hs Hl Hi. unfold getCellIdx.
  destruct (gridBoundsIdx g idx) eqn:E.
  - destruct (proj2 (nthZ_Some_iff (g_data g) idx)) as [v Hv]; [lia|].
    exists v. rewrite Hv. split; reflexivity.
  - assert (gridBoundsIdx g idx = true) by (apply bounds_idx_nonempty; lia). congruence.
Qed.

Lemma getCellIdx_out g idx :
  0 < g_xsize g * g_ysize g <= two32 -> g_xsize g * g_ysize g <= idx ->
  getCellIdx g idx = Throw EInvalidArgument.
Proof.
  intros Hs Hi. unfold getCellIdx. destruct (gridBoundsIdx g idx) eqn:E; [|reflexivity].
  apply bounds_idx_nonempty in E; lia.
Qed.

Lemma getCell_in g i j :
  0 <= g_xsize g * g_ysize g <= two32 -> lenZ (g_data g) = g_xsize g * g_ysize g ->
  0 <= i < g_ysize g -> 0 <= j < g_xsize g ->
  exists v, nthZ (g_data g) (i * g_xsize g + j) = Some v /\ getCell g i j = Ok (cell_val v).
Proof.
  intros Hs Hl Hi Hj. unfold getCell.
  destruct (row_major_in g i j Hi Hj) as [-> Hr]; [lia|].
  apply getCellIdx_in; lia.
Qed.

Lemma grid_ctor_inv xmin xmax ymin ymax rs data g :
  grid_ctor xmin xmax ymin ymax rs data = Ok g ->
  lenZ (g_data g) = u32 (g_xsize g * g_ysize g) /\ g_data g = data /\ g_res g = rs /\
  g_xmin g = xmin /\ g_ymin g = ymin /\ g_xmax g = xmax /\ g_ymax g = ymax /\
  axis_length xmin xmax rs = Ok (g_xsize g) /\ axis_length ymin ymax rs = Ok (g_ysize g).
Proof.
  unfold grid_ctor. destruct (axis_length xmin xmax rs) as [xs| | |] eqn:Ex; cbn [bind]; try discriminate.
  destruct (axis_length ymin ymax rs) as [ys| | |] eqn:Ey; cbn [bind]; try discriminate.
  destruct (size_ok xs ys data) eqn:E; [|discriminate].
  intros H; injection H; intros <-; cbn. unfold size_ok in E.
  repeat split; auto. lia.
Qed.

Lemma to_u32_range (x : T) z : to_u32 x = Ok z -> 0 <= z < two32.
Proof.
  unfold to_u32. destruct (ntrunc x); [|discriminate].
  destruct ((0 <=? z0) && (z0 <? two32)) eqn:E; [|discriminate]. intros H; injection H; lia.
Qed.

Lemma world2Grid_range g x y i j :
  world2Grid g x y = Ok (i, j) -> 0 <= i < two32 /\ 0 <= j < two32.
Proof.
  unfold world2Grid.
  destruct (to_u32 (nfloor ((x - g_xmin g) / g_res g)))%num as [a| | |] eqn:Ea; cbn [bind]; try discriminate.
  destruct (to_u32 (nfloor ((y - g_ymin g) / g_res g)))%num as [b| | |] eqn:Eb; cbn [bind]; try discriminate.
  apply to_u32_range in Ea. apply to_u32_range in Eb.
  intros H; injection H; intros <- <-.
  pose proof (u32_range (a - 1)). pose proof (u32_range (b - 1)).
  destruct (b =? g_ysize g), (a =? g_xsize g); lia.
Qed.
End Generic.

(** ** Ideal reals *)
Section Reals.
Local Open Scope R_scope.
Implicit Type g : grid R.

Lemma to_u32_floor (x : R) :
  to_u32 (nfloor x) = if ((0 <=? Zfloor x) && (Zfloor x <? two32))%Z then Ok (Zfloor x) else UB UFloatCast.
Proof. unfold to_u32. cbn [nfloor ntrunc RNum]. rewrite Ztrunc_IZR. reflexivity. Qed.
Lemma to_int_floor (x : R) :
  to_int (nfloor x) = if ((- two31 <=? Zfloor x) && (Zfloor x <? two31))%Z then Ok (Zfloor x) else UB UFloatCast.
Proof. unfold to_int. cbn [nfloor ntrunc RNum]. rewrite Ztrunc_IZR. reflexivity. Qed.

Definition axis_idx (x lo rs : R) : Z := Zfloor ((x - lo) / rs).

Lemma axis_idx_bounds x lo rs : 0 < rs ->
  lo + IZR (axis_idx x lo rs) * rs <= x < lo + (IZR (axis_idx x lo rs) + 1) * rs.
Proof.
  intros Hr. unfold axis_idx.
  pose proof (Zfloor_lb ((x - lo) / rs)). pose proof (Zfloor_ub ((x - lo) / rs)).
  assert (E : (x - lo) / rs * rs = x - lo) by (field; lra).
  set (q := (x - lo) / rs) in *. set (f := IZR (Zfloor q)) in *.
  split.
  - assert (f * rs <= q * rs) by (apply Rmult_le_compat_r; lra). lra.
  - assert (q * rs < (f + 1) * rs) by (apply Rmult_lt_compat_r; lra). lra.
Qed.

Lemma axis_idx_unique x lo rs k : 0 < rs ->
  lo + IZR k * rs <= x < lo + (IZR k + 1) * rs -> axis_idx x lo rs = k.
Proof.
  intros Hr [H1 H2]. unfold axis_idx. apply Zfloor_imp. rewrite plus_IZR.
  assert (E : (x - lo) / rs * rs = x - lo) by (field; lra).
  set (q := (x - lo) / rs) in *. split.
  - apply Rmult_le_reg_r with rs; lra.
  - apply Rmult_lt_reg_r with rs; lra.
Qed.

(** The index computed on one axis. *)
Definition snap (k n : Z) : Z := if (k =? n)%Z then u32 (k - 1) else k.

Lemma world2Grid_R g x y :
  world2Grid g x y =
  if ((0 <=? axis_idx x (g_xmin g) (g_res g)) && (axis_idx x (g_xmin g) (g_res g) <? two32))%Z then
  if ((0 <=? axis_idx y (g_ymin g) (g_res g)) && (axis_idx y (g_ymin g) (g_res g) <? two32))%Z then
    Ok (snap (axis_idx y (g_ymin g) (g_res g)) (g_ysize g), snap (axis_idx x (g_xmin g) (g_res g)) (g_xsize g))
  else UB UFloatCast else UB UFloatCast.
Proof.
  unfold world2Grid. rewrite !to_u32_floor. cbn [nsub ndiv RNum].
  fold (axis_idx x (g_xmin g) (g_res g)). fold (axis_idx y (g_ymin g) (g_res g)).
  destruct (_ && _)%bool; cbn [bind]; [|reflexivity].
  destruct (_ && _)%bool; cbn [bind]; reflexivity.
Qed.

Lemma axis_center_idx (k : Z) lo rs : 0 < rs ->
  axis_idx (IZR k * rs + rs / 2 + lo) lo rs = k.
Proof. intros Hr. apply axis_idx_unique; [assumption|]. split; nra. Qed.

Lemma center_roundtrip_R g i j :
  0 < g_res g -> (0 <= i < g_ysize g)%Z -> (0 <= j < g_xsize g)%Z ->
  (g_xsize g <= two32)%Z -> (g_ysize g <= two32)%Z ->
  let (x, y) := grid2World g i j in world2Grid g x y = Ok (i, j).
Proof.
  intros Hr Hi Hj Hx Hy. unfold grid2World.
  rewrite world2Grid_R. cbn [nofZ nmul nadd ndiv RNum n2].
  rewrite !axis_center_idx by assumption.
  unfold snap.
  destruct ((0 <=? j) && (j <? two32))%Z eqn:Ej; [|lia].
  destruct ((0 <=? i) && (i <? two32))%Z eqn:Ei; [|lia].
  destruct (i =? g_ysize g)%Z eqn:E1; [lia|].
  destruct (j =? g_xsize g)%Z eqn:E2; [lia|]. reflexivity.
Qed.

(** One axis of an on-map point: [lo <= x <= lo + n*rs]. *)
Lemma axis_on_map x lo rs n : 0 < rs -> (0 < n < two32)%Z -> lo <= x <= lo + IZR n * rs ->
  (0 <= axis_idx x lo rs <= n)%Z /\
  let k := snap (axis_idx x lo rs) n in
  (0 <= k < n)%Z /\ lo + IZR k * rs <= x <= lo + (IZR k + 1) * rs /\
  (x < lo + IZR n * rs -> x < lo + (IZR k + 1) * rs).
Proof.
  intros Hr Hn [Hx1 Hx2].
  pose proof (axis_idx_bounds x lo rs Hr) as [B1 B2].
  set (k := axis_idx x lo rs) in *.
  assert (0 <= k)%Z.
  { apply Znot_gt_le. intros C. assert (k <= -1)%Z by lia. apply IZR_le in H.
    assert ((IZR k + 1) * rs <= 0) by nra. lra. }
  assert (k <= n)%Z.
  { apply Znot_gt_le. intros C. assert (n + 1 <= k)%Z by lia. apply IZR_le in H0. rewrite plus_IZR in H0.
    assert ((IZR n + 1) * rs <= IZR k * rs) by nra. lra. }
  split; [lia|]. cbv zeta. unfold snap.
  destruct (k =? n)%Z eqn:E.
  - assert (k = n) by lia. rewrite u32_small by lia. split; [lia|].
    rewrite minus_IZR, H1 in *. split; [split; lra|]. intros; lra.
  - split; [lia|]. split; [split; lra|]. intros; lra.
Qed.

Lemma world2Grid_on_map g x y :
  0 < g_res g -> (0 < g_xsize g < two32)%Z -> (0 < g_ysize g < two32)%Z ->
  g_xmin g <= x <= g_xmin g + IZR (g_xsize g) * g_res g ->
  g_ymin g <= y <= g_ymin g + IZR (g_ysize g) * g_res g ->
  exists i j, world2Grid g x y = Ok (i, j) /\ (0 <= i < g_ysize g)%Z /\ (0 <= j < g_xsize g)%Z /\
    g_xmin g + IZR j * g_res g <= x <= g_xmin g + (IZR j + 1) * g_res g /\
    g_ymin g + IZR i * g_res g <= y <= g_ymin g + (IZR i + 1) * g_res g /\
    (x < g_xmin g + IZR (g_xsize g) * g_res g -> x < g_xmin g + (IZR j + 1) * g_res g) /\
    (y < g_ymin g + IZR (g_ysize g) * g_res g -> y < g_ymin g + (IZR i + 1) * g_res g).
Proof.
  intros Hr Hxs Hys Hx Hy. rewrite world2Grid_R.
  destruct (axis_on_map x _ _ _ Hr Hxs Hx) as [A1 [A2 [A3 A4]]].
  destruct (axis_on_map y _ _ _ Hr Hys Hy) as [B1 [B2 [B3 B4]]].
  do 2 eexists. split.
  - match goal with |- (if ?b then _ else _) = _ => destruct b eqn:E1 end; [|lia].
    match goal with |- (if ?b then _ else _) = _ => destruct b eqn:E2 end; [|lia].
    reflexivity.
  - repeat split; try tauto; try lra; apply A2 || apply B2.
Qed.

Lemma center_near g x y i j :
  0 < g_res g ->
  g_xmin g + IZR j * g_res g <= x <= g_xmin g + (IZR j + 1) * g_res g ->
  g_ymin g + IZR i * g_res g <= y <= g_ymin g + (IZR i + 1) * g_res g ->
  Rabs (fst (grid2World g i j) - x) <= g_res g / 2 /\
  Rabs (snd (grid2World g i j) - y) <= g_res g / 2.
Proof.
  intros Hr Hx Hy. unfold grid2World. cbn [fst snd nofZ nmul nadd ndiv RNum n2].
  split; apply Rabs_le; lra.
Qed.

(** Off-map points *)
Lemma world2Grid_left g x y : 0 < g_res g -> x < g_xmin g -> world2Grid g x y = UB UFloatCast.
Proof.
  intros Hr Hx. rewrite world2Grid_R.
  pose proof (axis_idx_bounds x (g_xmin g) (g_res g) Hr) as [B1 B2].
  set (k := axis_idx x (g_xmin g) (g_res g)) in *.
  assert (k < 0)%Z. { apply lt_IZR. apply Rmult_lt_reg_r with (g_res g); lra. }
  destruct ((0 <=? k) && (k <? two32))%Z eqn:E; [lia|reflexivity].
Qed.
Lemma world2Grid_below g x y : 0 < g_res g -> y < g_ymin g -> world2Grid g x y = UB UFloatCast.
Proof.
  intros Hr Hx. rewrite world2Grid_R.
  pose proof (axis_idx_bounds y (g_ymin g) (g_res g) Hr) as [B1 B2].
  set (k := axis_idx y (g_ymin g) (g_res g)) in *.
  assert (k < 0)%Z. { apply lt_IZR. apply Rmult_lt_reg_r with (g_res g); lra. }
  destruct ((0 <=? k) && (k <? two32))%Z eqn:E; [lia|].
  match goal with |- (if ?b then _ else _) = _ => destruct b end; reflexivity.
Qed.

Lemma axis_beyond x lo rs n : 0 < rs -> (0 < n < two32)%Z ->
  lo + IZR n * rs <= x < lo + (IZR n + 1) * rs -> axis_idx x lo rs = n /\ snap n n = (n - 1)%Z.
Proof.
  intros Hr Hn H. split; [apply axis_idx_unique; assumption|].
  unfold snap. destruct (n =? n)%Z eqn:E; [|lia]. apply u32_small; lia.
Qed.

Lemma axis_far x lo rs n : 0 < rs ->
  lo + (IZR n + 1) * rs <= x -> (n < axis_idx x lo rs)%Z /\
  snap (axis_idx x lo rs) n = axis_idx x lo rs.
Proof.
  intros Hr H. pose proof (axis_idx_bounds x lo rs Hr) as [B1 B2].
  set (k := axis_idx x lo rs) in *.
  assert (n < k)%Z.
  { apply lt_IZR. apply Rmult_lt_reg_r with rs; [lra|].
    assert ((IZR n + 1) * rs < (IZR k + 1) * rs) by lra. lra. }
  split; [assumption|]. unfold snap. destruct (k =? n)%Z eqn:E; [lia|reflexivity].
Qed.

(** axis_length / axis_upper *)
Lemma axis_length_upper lo rs (n : Z) : 0 < rs -> (0 <= n < two32)%Z ->
  axis_length lo (axis_upper lo rs n) rs = Ok n.
Proof.
  intros Hr Hn. unfold axis_length, axis_upper, to_u32. cbn [nround nadd nsub nmul ndiv nofZ ntrunc RNum].
  replace ((rs * IZR n + lo - lo) / rs) with (IZR n) by (field; lra).
  rewrite (Zrnd_IZR ZnearestA n), Ztrunc_IZR.
  destruct ((0 <=? n) && (n <? two32))%Z eqn:E; [reflexivity|lia].
Qed.
Lemma axis_length_nearest lo hi rs n : 0 < rs ->
  axis_length lo hi rs = Ok n -> Rabs ((hi - lo) - IZR n * rs) <= rs / 2.
Proof.
  intros Hr. unfold axis_length, to_u32. cbn [nround nadd nsub nmul ndiv nofZ ntrunc RNum].
  rewrite Ztrunc_IZR. destruct (_ && _)%bool; [|discriminate]. intros H; injection H; intros <-.
  set (q := (hi - lo) / rs). pose proof (Znearest_half (fun x => Z.leb 0 x) q) as Hh.
  replace (hi - lo) with (q * rs) by (unfold q; field; lra).
  rewrite <- Rmult_minus_distr_r, Rabs_mult, (Rabs_pos_eq rs) by lra.
  assert (Rabs (q - IZR (ZnearestA q)) <= / 2) by exact Hh. nra.
Qed.

(** Cell values *)
Lemma cell_val_R v : @cell_val R _ v = IZR v / 100.
Proof. reflexivity. Qed.
End Reals.
