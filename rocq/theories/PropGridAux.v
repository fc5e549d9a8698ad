(** Proofs of the statements of PropGrid.v from the lemmas of GridProofs.v and GridFloat.v. *)
From Coq Require Import Reals Lra ZArith Lia ZifyBool.
From Flocq Require Import Core.Raux Core.Zaux IEEE754.BinarySingleNaN.
From Verif Require Import Outcome Num Float64 FloatLemmas GridModel Spec GridProofs GridFloat.
Local Open Scope Z_scope.

Section Gen.
Context {T : Type} {NT : Num T}.
Implicit Type g : grid T.

Lemma c01_bijection g :
  dims g -> cells g <= 2 ^ 32 ->
  (forall i j, in_grid g i j ->
     0 <= grid2RowMajor g i j < cells g /\ rowMajor2Grid g (grid2RowMajor g i j) = Ok (i, j)) /\
  (forall idx, 0 <= idx < cells g ->
     exists i j, in_grid g i j /\ rowMajor2Grid g idx = Ok (i, j) /\ grid2RowMajor g i j = idx).
Proof.
  intros [[Hx _] _] Hs. unfold cells in *. split.
  - intros i j [Hi Hj]. split.
    + destruct (row_major_in g i j Hi Hj Hs) as [-> H]. exact H.
    + apply row_major_fwd; assumption.
  - intros idx Hi. destruct (row_major_bwd g idx Hx Hs Hi) as (i & j & A & B & C & D).
    exists i, j. unfold in_grid. auto.
Qed.

Lemma c02_pair g i j :
  dims g -> 0 < g_xsize g -> 0 < g_ysize g -> is_u32 i -> is_u32 j ->
  (gridBounds g i j = true <-> in_grid g i j).
Proof.
  unfold dims, is_u32. intros [Hx Hy] H1 H2 Hi Hj. unfold in_grid.
  rewrite bounds_nonempty by (unfold two32; lia). lia.
Qed.
Lemma c02_idx g idx :
  0 < cells g <= 2 ^ 32 -> is_u32 idx -> (gridBoundsIdx g idx = true <-> idx < cells g).
Proof. intros H _. apply bounds_idx_nonempty. exact H. Qed.
Lemma c02_pair_idx g i j :
  dims g -> 0 < cells g <= 2 ^ 32 -> is_u32 i -> is_u32 j ->
  gridBounds g i j = true -> gridBoundsIdx g (grid2RowMajor g i j) = true.
Proof.
  unfold dims, is_u32, cells. intros [Hx Hy] Hc Hi Hj Hb.
  assert (0 < g_xsize g) by nia. assert (0 < g_ysize g) by nia.
  apply bounds_nonempty in Hb; [|unfold two32; lia..].
  apply bounds_idx_nonempty; [exact Hc|].
  destruct (row_major_in g i j) as [-> R]; [lia|lia|exact (proj2 Hc)|lia].
Qed.
Lemma c02_empty i j idx :
  is_u32 i -> is_u32 j -> is_u32 idx ->
  gridBounds (@grid_default T NT) i j = true /\ gridBoundsIdx (@grid_default T NT) idx = true.
Proof.
  intros Hi Hj Hd. split; [apply bounds_empty | apply bounds_idx_empty]; auto.
Qed.

Lemma c03_ctor xmin xmax ymin ymax rs data :
  (exists g, grid_ctor xmin xmax ymin ymax rs data = Ok g) <->
  (exists xs ys, axis_length xmin xmax rs = Ok xs /\ axis_length ymin ymax rs = Ok ys /\
     lenZ data = (xs * ys) mod 2 ^ 32).
Proof.
  split.
  - intros [g H]. apply grid_ctor_inv in H. destruct H as (A & <- & _ & _ & _ & _ & _ & B & C).
    exists (g_xsize g), (g_ysize g). auto.
  - intros (xs & ys & A & B & C). unfold grid_ctor. rewrite A, B. cbn [bind].
    unfold size_ok. change (u32 (xs * ys)) with ((xs * ys) mod 2 ^ 32). rewrite <- C, Z.eqb_refl. eauto.
Qed.
Lemma c03_msg_ctor (m : msg T) :
  (exists g, grid_msg_ctor m = Ok g) <-> lenZ (m_data m) = (m_width m * m_height m) mod 2 ^ 32.
Proof.
  unfold grid_msg_ctor, size_ok. cbn [grid_of_msg g_xsize g_ysize g_data].
  change (u32 (m_width m * m_height m)) with ((m_width m * m_height m) mod 2 ^ 32).
  destruct (Z.eqb_spec ((m_width m * m_height m) mod 2 ^ 32) (lenZ (m_data m))).
  - split; [intros; congruence | eauto].
  - split; [intros [g H]; discriminate | congruence].
Qed.
Lemma msg_ctor_eq (m : msg T) g : grid_msg_ctor m = Ok g ->
  g = grid_of_msg m /\ u32 (m_width m * m_height m) = lenZ (m_data m).
Proof.
  unfold grid_msg_ctor, size_ok. cbn [grid_of_msg g_xsize g_ysize g_data].
  destruct (Z.eqb_spec (u32 (m_width m * m_height m)) (lenZ (m_data m))); [|discriminate].
  intros H; injection H; auto.
Qed.
Lemma c03_total (m : msg T) g :
  is_u32 (m_width m) -> is_u32 (m_height m) -> m_width m * m_height m < 2 ^ 32 ->
  grid_msg_ctor m = Ok g ->
  (forall i j, in_grid g i j -> exists v,
     nthZ (m_data m) (i * m_width m + j) = Some v /\ getCell g i j = Ok (nofZ v / nofZ 100)%num) /\
  (forall idx, is_u32 idx -> 0 < cells g -> cells g <= idx -> getCellIdx g idx = Throw EInvalidArgument).
Proof.
  unfold is_u32, cells. intros Hw Hh Hs Hg. apply msg_ctor_eq in Hg. destruct Hg as [-> Hl].
  assert (0 <= m_width m * m_height m) by nia.
  rewrite u32_small in Hl by (unfold two32; lia). split.
  - intros i j [Hi Hj]. cbn in Hi, Hj.
    destruct (getCell_in (grid_of_msg m) i j) as [v [A B]]; cbn; try (unfold two32; lia).
    exists v. auto.
  - intros idx Hi H0 H1. cbn in H0, H1. apply getCellIdx_out; cbn; unfold two32; lia.
Qed.

Lemma c04_update (g : grid T) (m : msg T) :
  let g' := grid_update g m in
  g_xsize g' = m_width m /\ g_ysize g' = m_height m /\ g_res g' = m_res m /\
  g_xmin g' = m_ox m /\ g_ymin g' = m_oy m /\ g_data g' = m_data m /\
  (forall h, grid_msg_ctor m = Ok h -> g' = h).
Proof.
  cbn. repeat split. intros h H. apply msg_ctor_eq in H. destruct H; auto.
Qed.
Lemma c04_history (ms : list (msg T)) : forall (g : grid T),
  sized g -> 0 <= cells g < 2 ^ 32 ->
  (forall m, In m ms -> is_u32 (m_width m) /\ is_u32 (m_height m) /\ m_width m * m_height m < 2 ^ 32 /\
                        lenZ (m_data m) = m_width m * m_height m) ->
  forall i j, in_grid (fold_left grid_update ms g) i j ->
    exists v, getCell (fold_left grid_update ms g) i j = Ok v.
Proof.
  induction ms as [|m ms IH]; intros g Hz Hc Hm i j Hij.
  - cbn in *. destruct Hij as [Hi Hj].
    destruct (getCell_in g i j) as [v [_ B]]; eauto. unfold cells, two32 in *; lia.
  - cbn [fold_left] in *. apply IH; auto.
    + destruct (Hm m (or_introl eq_refl)) as (_ & _ & _ & E). exact E.
    + destruct (Hm m (or_introl eq_refl)) as (A & B & C & E). unfold cells; cbn.
      unfold is_u32 in *. nia.
    + intros m' Hin. apply Hm. right; exact Hin.
Qed.

Lemma c09_overloads (g : grid T) i j x y :
  getCell g i j = getCellIdx g (grid2RowMajor g i j) /\
  (world2Grid g x y = Ok (i, j) -> getCellXY g x y = getCell g i j).
Proof.
  split; [reflexivity|]. intros H. unfold getCellXY, world2RowMajor. rewrite H. reflexivity.
Qed.
Lemma c09_stored (g : grid T) idx a :
  is_u32 idx -> getCellIdx g idx = Ok a ->
  exists v, nth_error (g_data g) (Z.to_nat idx) = Some v /\ a = (nofZ v / nofZ 100)%num.
Proof.
  unfold is_u32. intros Hi. unfold getCellIdx. destruct (gridBoundsIdx g idx); [|discriminate].
  unfold nthZ. destruct (Z.ltb_spec idx 0); [discriminate|].
  destruct (nth_error (g_data g) (Z.to_nat idx)) as [v|]; [|discriminate].
  intros H1; injection H1; intros <-. eauto.
Qed.
End Gen.

Lemma c01_large : exists g : grid R, dims g /\ in_grid g 0 0 /\ in_grid g 65536 0 /\
  grid2RowMajor g 65536 0 = grid2RowMajor g 0 0.
Proof.
  exists (mkGrid 65536 65537 1 0 0 0 0 [])%R.
  unfold dims, is_u32, in_grid; cbn. repeat split; try lia; vm_compute; reflexivity.
Qed.

Lemma c03_overflow : exists (m : msg R) g,
  is_u32 (m_width m) /\ is_u32 (m_height m) /\ grid_msg_ctor m = Ok g /\ in_grid g 0 0 /\
  gridBounds g 0 0 = true /\ getCell g 0 0 = Throw EOutOfRange.
Proof.
  exists (mkMsg 65536 65536 1 0 0 [])%R. eexists.
  unfold is_u32, in_grid. repeat split; try reflexivity; cbn; lia.
Qed.
Lemma c04_unchecked (g : grid R) : exists m : msg R,
  grid_msg_ctor m = Throw EInvalidArgument /\
  gridBounds (grid_update g m) 1 0 = true /\ getCell (grid_update g m) 1 0 = Throw EOutOfRange.
Proof. exists (mkMsg 2 2 1%R 0%R 0%R [0; 0]). repeat split. Qed.

Lemma c05_real (g : grid R) i j :
  dims g -> (0 < g_res g)%R -> in_grid g i j ->
  world2Grid g (fst (grid2World g i j)) (snd (grid2World g i j)) = Ok (i, j).
Proof.
  unfold dims, is_u32. intros [Hx Hy] Hr [Hi Hj].
  pose proof (center_roundtrip_R g i j Hr Hi Hj) as H.
  destruct (grid2World g i j) as [x y]. apply H; unfold two32; lia.
Qed.
Lemma c05_b64 (L : libm) (g : grid b64) i j :
  dims g -> in_grid g i j ->
  is_finite (g_res g) = true -> is_finite (g_xmin g) = true -> is_finite (g_ymin g) = true ->
  (bpow radix2 (-500) <= B2R (g_res g) <= bpow radix2 500)%R ->
  (Rabs (B2R (g_xmin g)) <= bpow radix2 48 * B2R (g_res g))%R ->
  (Rabs (B2R (g_ymin g)) <= bpow radix2 48 * B2R (g_res g))%R ->
  @world2Grid b64 (F64 L) g (fst (@grid2World b64 (F64 L) g i j)) (snd (@grid2World b64 (F64 L) g i j))
  = Ok (i, j).
Proof.
  unfold dims, is_u32. intros [Hx Hy] [Hi Hj] Fr Fx Fy Br Bx By.
  pose proof (center_roundtrip_b64 L g i j Fr Fx Fy Br Bx By Hi Hj) as H.
  destruct (grid2World g i j) as [x y]. apply H; unfold two32; lia.
Qed.
Lemma c05_far (L : libm) : exists g : grid b64,
  dims g /\ in_grid g 0 1 /\ is_finite (g_res g) = true /\ is_finite (g_xmin g) = true /\
  is_finite (g_ymin g) = true /\ B2R (g_res g) = 1%R /\
  @world2Grid b64 (F64 L) g (fst (@grid2World b64 (F64 L) g 0 1)) (snd (@grid2World b64 (F64 L) g 0 1))
  <> Ok (0, 1).
Proof.
  exists (mkGrid 3 3 (b64_ofZ 1) (b64_ofZ (2^60)) (b64_ofZ 0) (b64_ofZ 0) (b64_ofZ 0) []).
  unfold dims, in_grid, is_u32. cbn [g_xsize g_ysize g_res g_xmin g_ymin].
  repeat split; try lia; try reflexivity.
  - apply (ofZ_exact 1). lia.
  - vm_compute. discriminate.
Qed.
Lemma B2R_finite_bounds (m e : Z) (x : b64) : b64_scaled m e = x -> x = b64_scaled m e.
Proof. congruence. Qed.
Lemma c05_example_b64 : exists g : grid b64, dims g /\ in_grid g 200 300 /\
  is_finite (g_res g) = true /\ is_finite (g_xmin g) = true /\ is_finite (g_ymin g) = true /\
  (bpow radix2 (-500) <= B2R (g_res g) <= bpow radix2 500)%R /\
  (Rabs (B2R (g_xmin g)) <= bpow radix2 48 * B2R (g_res g))%R /\
  (Rabs (B2R (g_ymin g)) <= bpow radix2 48 * B2R (g_res g))%R.
Proof.
  set (rs := Bdiv mode_NE (b64_ofZ 5) (b64_ofZ 100)).
  set (ox := Bdiv mode_NE (b64_ofZ (-25)) (b64_ofZ 2)).
  exists (mkGrid 400 400 rs ox (b64_ofZ 3) ox ox []).
  unfold dims, in_grid, is_u32. cbn [g_xsize g_ysize g_res g_xmin g_ymin].
  destruct (ofZ_exact 5 ltac:(lia)) as [E5 F5]. destruct (ofZ_exact 100 ltac:(lia)) as [E1 F1].
  destruct (ofZ_exact (-25) ltac:(lia)) as [E25 F25]. destruct (ofZ_exact 2 ltac:(lia)) as [E2 F2].
  destruct (ofZ_exact 3 ltac:(lia)) as [E3 F3].
  assert (Lo : (bpow radix2 (-1022) <= / 20)%R).
  { apply Rle_trans with (bpow radix2 (-5)); [apply bpow_le; lia|cbn; lra]. }
  assert (Hi : (20 <= bpow radix2 1000)%R).
  { apply Rle_trans with (bpow radix2 5); [cbn; lra|apply bpow_le; lia]. }
  destruct (fdiv_rel (b64_ofZ 5) (b64_ofZ 100) F5) as [e [He [Ve Fe]]].
  { rewrite E1; lra. }
  { rewrite E5, E1. rewrite Rabs_pos_eq by lra. lra. }
  destruct (fdiv_rel (b64_ofZ (-25)) (b64_ofZ 2) F25) as [d [Hd [Vd Fd]]].
  { rewrite E2; lra. }
  { rewrite E25, E2. replace (Rabs (-25 / 2)) with (25/2)%R; [lra|].
    rewrite Rabs_left by lra. lra. }
  fold rs in Ve, Fe. fold ox in Vd, Fd.
  rewrite ueps_val in He, Hd. apply abs_lt_iff in He. apply abs_lt_iff in Hd.
  assert (V48 : bpow radix2 48 = 281474976710656%R) by (cbn; lra).
  rewrite V48, Ve, Vd, E3, E5, E1, E25, E2.
  assert ((bpow radix2 (-500) <= / 40)%R).
  { apply Rle_trans with (bpow radix2 (-6)); [apply bpow_le; lia|cbn; lra]. }
  assert ((1 <= bpow radix2 500)%R).
  { change 1%R with (bpow radix2 0). apply bpow_le; lia. }
  repeat split; try lia; try assumption; try lra; apply Rabs_le; lra.
Qed.

Lemma c06_on_map (g : grid R) x y :
  dims g -> 0 < g_xsize g -> 0 < g_ysize g -> (0 < g_res g)%R -> on_map g x y ->
  exists i j, world2Grid g x y = Ok (i, j) /\ in_grid g i j /\ in_cell g i j x y /\
    (Rabs (fst (grid2World g i j) - x) <= g_res g / 2)%R /\
    (Rabs (snd (grid2World g i j) - y) <= g_res g / 2)%R /\
    ((x < g_xmin g + IZR (g_xsize g) * g_res g)%R -> (x < g_xmin g + (IZR j + 1) * g_res g)%R) /\
    ((y < g_ymin g + IZR (g_ysize g) * g_res g)%R -> (y < g_ymin g + (IZR i + 1) * g_res g)%R).
Proof.
  unfold dims, is_u32. intros [Hx Hy] H1 H2 Hr [Mx My].
  destruct (world2Grid_on_map g x y Hr) as (i & j & A & B & C & D & E & F & G);
    try assumption; try (unfold two32; lia).
  exists i, j. split; [exact A|]. split; [split; assumption|]. split; [split; assumption|].
  destruct (center_near g x y i j Hr D E). auto.
Qed.

Lemma c07_ub (g : grid R) x y :
  (0 < g_res g)%R -> (x < g_xmin g \/ y < g_ymin g)%R -> world2Grid g x y = UB UFloatCast.
Proof. intros Hr [H|H]; [apply world2Grid_left | apply world2Grid_below]; assumption. Qed.
Lemma c07_snap (g : grid R) x y :
  dims g -> 0 < g_xsize g -> 0 < g_ysize g -> (0 < g_res g)%R ->
  (g_xmin g + IZR (g_xsize g) * g_res g <= x < g_xmin g + (IZR (g_xsize g) + 1) * g_res g)%R ->
  (g_ymin g <= y < g_ymin g + IZR (g_ysize g) * g_res g)%R ->
  exists i, world2Grid g x y = Ok (i, g_xsize g - 1) /\ in_grid g i (g_xsize g - 1).
Proof.
  unfold dims, is_u32. intros [Hx Hy] H1 H2 Hr Mx My.
  destruct (axis_beyond x (g_xmin g) (g_res g) (g_xsize g) Hr ltac:(unfold two32; lia) Mx) as [A B].
  destruct (axis_on_map y (g_ymin g) (g_res g) (g_ysize g) Hr ltac:(unfold two32; lia)) as [C [D _]]; [lra|].
  rewrite world2Grid_R, A, B.
  exists (snap (axis_idx y (g_ymin g) (g_res g)) (g_ysize g)). split.
  - destruct ((0 <=? g_xsize g) && (g_xsize g <? two32)) eqn:E1; [|unfold two32 in E1; lia].
    match goal with |- (if ?b then _ else _) = _ => destruct b eqn:E2 end; [reflexivity|unfold two32 in E2; lia].
  - unfold in_grid. lia.
Qed.
Lemma c07_far (g : grid R) x y i j :
  dims g -> (0 < g_res g)%R -> world2Grid g x y = Ok (i, j) ->
  (g_xmin g + (IZR (g_xsize g) + 1) * g_res g <= x \/
   g_ymin g + (IZR (g_ysize g) + 1) * g_res g <= y)%R -> ~ in_grid g i j.
Proof.
  intros _ Hr H F. rewrite world2Grid_R in H.
  match type of H with (if ?b then _ else _) = _ => destruct b eqn:E1 end; [|discriminate].
  match type of H with (if ?b then _ else _) = _ => destruct b eqn:E2 end; [|discriminate].
  injection H; intros Hj Hi. unfold in_grid. intros [I J].
  destruct F as [F|F]; apply axis_far in F; try assumption; destruct F as [F1 F2]; lia.
Qed.
Lemma c07_near (g : grid R) x y i j :
  dims g -> (0 < g_res g)%R -> world2Grid g x y = Ok (i, j) -> in_grid g i j ->
  (g_xmin g <= x < g_xmin g + (IZR (g_xsize g) + 1) * g_res g /\
   g_ymin g <= y < g_ymin g + (IZR (g_ysize g) + 1) * g_res g)%R.
Proof.
  intros Hd Hr H Hin.
  destruct (Rlt_dec x (g_xmin g)) as [A|A].
  { rewrite (world2Grid_left g x y Hr A) in H; discriminate. }
  destruct (Rlt_dec y (g_ymin g)) as [B|B].
  { rewrite (world2Grid_below g x y Hr B) in H; discriminate. }
  destruct (Rle_dec (g_xmin g + (IZR (g_xsize g) + 1) * g_res g) x) as [C|C].
  { exfalso. apply (c07_far g x y i j Hd Hr H); auto. }
  destruct (Rle_dec (g_ymin g + (IZR (g_ysize g) + 1) * g_res g) y) as [D|D].
  { exfalso. apply (c07_far g x y i j Hd Hr H); auto. }
  lra.
Qed.
Lemma c04_extent (g : grid R) (m : msg R) : let g' := grid_update g m in
  (g_xmax g' = m_ox m + IZR (m_width m) * m_res m /\ g_ymax g' = m_oy m + IZR (m_height m) * m_res m)%R.
Proof. cbn. split; ring. Qed.
Lemma c08_inverse lo rs (n : Z) :
  (0 < rs)%R -> is_u32 n -> axis_length lo (axis_upper lo rs n) rs = Ok n.
Proof. intros. apply axis_length_upper; assumption. Qed.
Lemma c09_order (L : libm) u v : is_byte u -> is_byte v ->
  let rd := fun w => @ndiv b64 (F64 L) (@nofZ b64 (F64 L) w) (@nofZ b64 (F64 L) 100) in
  @nlt b64 (F64 L) (rd u) (rd v) = (u <? v) /\ @nlt b64 (F64 L) (rd u) (@nofZ b64 (F64 L) 0) = (u <? 0) /\
  is_finite (rd u) = true.
Proof.
  intros Hu Hv rd. split; [|split].
  - apply (cell_val_b64_strict L u v Hu Hv).
  - apply (cell_val_b64_neg L u Hu).
  - apply (cell_val_b64 L u Hu).
Qed.
