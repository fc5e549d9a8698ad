(** Lemmas behind the binary64 statements of C06, C07 and C08. *)
From Coq Require Import Reals Lra ZArith Lia.
From Flocq Require Import Core.Core IEEE754.BinarySingleNaN.
From Verif Require Import Outcome Num Float64 GridModel Spec FloatLemmas GridFloat GridFloat2.
Local Open Scope Z_scope.

Lemma c06_b64 (L : libm) (g : grid b64) (x y : b64) :
  dims g -> 0 < g_xsize g -> 0 < g_ysize g ->
  is_finite (g_res g) = true -> is_finite (g_xmin g) = true -> is_finite (g_ymin g) = true ->
  is_finite x = true -> is_finite y = true ->
  (bpow radix2 (-500) <= B2R (g_res g) <= bpow radix2 500)%R ->
  (B2R (g_xmin g) <= B2R x <= B2R (g_xmin g) + IZR (g_xsize g) * B2R (g_res g))%R ->
  (B2R (g_ymin g) <= B2R y <= B2R (g_ymin g) + IZR (g_ysize g) * B2R (g_res g))%R ->
  exists i j, @world2Grid b64 (F64 L) g x y = Ok (i, j) /\ in_grid g i j /\
    (B2R (g_xmin g) + (IZR j - bpow radix2 (-19)) * B2R (g_res g) <= B2R x <=
     B2R (g_xmin g) + (IZR j + 1 + bpow radix2 (-19)) * B2R (g_res g))%R /\
    (B2R (g_ymin g) + (IZR i - bpow radix2 (-19)) * B2R (g_res g) <= B2R y <=
     B2R (g_ymin g) + (IZR i + 1 + bpow radix2 (-19)) * B2R (g_res g))%R.
Proof.
  intros [Dx Dy] Px Py Fr F1 F2 Fx Fy Hr Hx Hy. unfold is_u32 in *. change (2 ^ 32) with two32 in *.
  destruct (axis_index_b64 (g_xsize g) (g_res g) (g_xmin g) x ltac:(lia) Fr F1 Fx Hr Hx) as (j & J1 & J2 & J3).
  destruct (axis_index_b64 (g_ysize g) (g_res g) (g_ymin g) y ltac:(lia) Fr F2 Fy Hr Hy) as (i & I1 & I2 & I3).
  cbv zeta in I3, J3.
  exists (if i =? g_ysize g then g_ysize g - 1 else i), (if j =? g_xsize g then g_xsize g - 1 else j).
  split; [|split; [|split; assumption]].
  - unfold world2Grid, to_u32. cbn [nsub ndiv nfloor ntrunc F64]. rewrite J1, I1.
    destruct ((0 <=? j) && (j <? two32))%Z eqn:E1; [|lia].
    destruct ((0 <=? i) && (i <? two32))%Z eqn:E2; [|lia]. cbn [bind].
    assert (U : forall k n, 0 < n < two32 -> (if k =? n then u32 (k - 1) else k) = (if k =? n then n - 1 else k)).
    { intros k n Hn. destruct (Z.eqb_spec k n) as [->|]; [|reflexivity]. unfold u32. apply Z.mod_small. lia. }
    rewrite !U by lia. reflexivity.
  - unfold in_grid. destruct (Z.eqb_spec i (g_ysize g)), (Z.eqb_spec j (g_xsize g)); lia.
Qed.

Lemma c07_b64 (L : libm) (g : grid b64) (x y : b64) :
  is_finite (g_res g) = true -> is_finite (g_xmin g) = true -> is_finite (g_ymin g) = true ->
  is_finite x = true -> is_finite y = true ->
  (bpow radix2 (-500) <= B2R (g_res g) <= 1)%R ->
  (Rabs (B2R (g_xmin g) - B2R x) <= bpow radix2 400)%R -> (Rabs (B2R (g_ymin g) - B2R y) <= bpow radix2 400)%R ->
  (B2R x < B2R (g_xmin g) \/ B2R y < B2R (g_ymin g))%R ->
  @world2Grid b64 (F64 L) g x y = UB UFloatCast.
Proof.
  intros Fr F1 F2 Fx Fy Hr Mx My H. apply abs_lt_iff in Mx, My.
  unfold world2Grid, to_u32. cbn [nsub ndiv nfloor ntrunc F64].
  destruct H as [H|H].
  - destruct (axis_left_b64 (g_res g) (g_xmin g) x Fr F1 Fx Hr H ltac:(lra)) as (k & K1 & K2). rewrite K1.
    destruct ((0 <=? k) && (k <? two32))%Z eqn:E1; [lia|]. reflexivity.
  - destruct (axis_left_b64 (g_res g) (g_ymin g) y Fr F2 Fy Hr H ltac:(lra)) as (k & K1 & K2). rewrite K1.
    destruct ((0 <=? k) && (k <? two32))%Z eqn:E1; [lia|].
    destruct (b64_trunc (Bnearbyint mode_DN (Bdiv mode_NE (Bminus mode_NE x (g_xmin g)) (g_res g)))) as [j|]; [|reflexivity].
    destruct ((0 <=? j) && (j <? two32))%Z; reflexivity.
Qed.

Lemma c08_b64 (L : libm) (lo rs : b64) n :
  is_u32 n -> is_finite rs = true -> is_finite lo = true ->
  (bpow radix2 (-500) <= B2R rs <= bpow radix2 500)%R ->
  (Rabs (B2R lo) <= bpow radix2 48 * B2R rs)%R ->
  @axis_length b64 (F64 L) lo (@axis_upper b64 (F64 L) lo rs n) rs = Ok n.
Proof.
  intros Hn Fr Fl Hr Hl. unfold is_u32 in Hn. change (2 ^ 32) with two32 in Hn.
  unfold axis_length, axis_upper, to_u32. cbn [nsub nadd nmul ndiv nround ntrunc nofZ F64].
  pose proof (axis_roundtrip_b64 n rs lo Hn Fr Fl Hr Hl) as E. cbv zeta in E. rewrite E.
  destruct ((0 <=? n) && (n <? two32))%Z eqn:E1; [reflexivity|lia].
Qed.
Lemma c08_far (L : libm) : exists lo rs : b64, is_finite lo = true /\ is_finite rs = true /\ B2R rs = 1%R /\
  @axis_length b64 (F64 L) lo (@axis_upper b64 (F64 L) lo rs 1) rs <> Ok 1.
Proof.
  exists (b64_ofZ (2 ^ 60)), (b64_ofZ 1). repeat split.
  - apply (ofZ_exact 1). lia.
  - vm_compute. discriminate.
Qed.
Lemma c08_msg (L : libm) (m : msg b64) :
  is_u32 (m_width m) -> is_u32 (m_height m) -> is_finite (m_res m) = true ->
  is_finite (m_ox m) = true -> is_finite (m_oy m) = true ->
  (bpow radix2 (-500) <= B2R (m_res m) <= bpow radix2 500)%R ->
  (Rabs (B2R (m_ox m)) <= bpow radix2 48 * B2R (m_res m))%R ->
  (Rabs (B2R (m_oy m)) <= bpow radix2 48 * B2R (m_res m))%R ->
  forall g, @grid_msg_ctor b64 (F64 L) m = Ok g ->
  @grid_ctor b64 (F64 L) (g_xmin g) (g_xmax g) (g_ymin g) (g_ymax g) (g_res g) (g_data g) = Ok g.
Proof.
  intros Hw Hh Fr F1 F2 Hr H1 H2 g. unfold grid_msg_ctor.
  destruct (size_ok _ _ _) eqn:E; [|discriminate]. intros X. injection X as <-.
  unfold grid_ctor. cbn [g_xmin g_xmax g_ymin g_ymax g_res g_data g_xsize g_ysize grid_of_msg] in *.
  rewrite !c08_b64 by assumption. cbn [bind]. rewrite E. reflexivity.
Qed.

(** A 1/16 m grid: all numbers are exact *)
Definition fl (p q : Z) : b64 := b64_scaled p q.
Definition gex : grid b64 := mkGrid 3 2 (fl 1 (-4)) (fl (-25) (-1)) (fl 3 0) (fl 0 0) (fl 0 0) [].
Lemma fl_val p q : Z.abs p <= 2 ^ 53 -> -100 <= q <= 100 -> B2R (fl p q) = (IZR p * bpow radix2 q)%R /\ is_finite (fl p q) = true.
Proof.
  intros Hp Hq. unfold fl, b64_scaled.
  pose proof (binary_normalize_correct 53 1024 prec53 emax1024 mode_NE p q false) as C. cbv zeta in C.
  assert (HF : F2R (Float radix2 p q) = (IZR p * bpow radix2 q)%R) by reflexivity.
  assert (G : generic_format radix2 (SpecFloat.fexp 53 1024) (F2R (Float radix2 p q))).
  { destruct (Z.eq_dec (Z.abs p) (2 ^ 53)) as [E|E].
    - assert (D : p = 2 ^ 53 \/ p = - 2 ^ 53) by lia.
      assert (B : generic_format radix2 (SpecFloat.fexp 53 1024) (bpow radix2 (53 + q))).
      { apply generic_format_bpow. unfold SpecFloat.fexp, SpecFloat.emin. lia. }
      rewrite HF. rewrite bpow_plus in B. change (bpow radix2 53) with (IZR (2 ^ 53)) in B.
      destruct D as [-> | ->]; [exact B|]. rewrite opp_IZR, <- Ropp_mult_distr_l. apply generic_format_opp, B.
    - apply (generic_format_FLT radix2 (-1074) 53). exists (Float radix2 p q); cbn [Fnum Fexp].
      + reflexivity.
      + change (radix2 ^ 53) with (2 ^ 53). lia.
      + lia. }
  rewrite round_generic in C by (try typeclasses eauto; exact G).
  rewrite HF in C. rewrite Rlt_bool_true in C.
  - split; apply C.
  - rewrite Rabs_mult, <- abs_IZR, (Rabs_pos_eq (bpow radix2 q)) by apply bpow_ge_0.
    apply Rle_lt_trans with (bpow radix2 53 * bpow radix2 q)%R.
    + apply Rmult_le_compat_r; [apply bpow_ge_0|]. change (bpow radix2 53) with (IZR (2 ^ 53)). apply IZR_le, Hp.
    + rewrite <- bpow_plus. apply bpow_lt. lia.
Qed.
Lemma gex_ok : dims gex /\ 0 < g_xsize gex /\ 0 < g_ysize gex /\
  is_finite (g_res gex) = true /\ is_finite (g_xmin gex) = true /\ is_finite (g_ymin gex) = true /\
  (bpow radix2 (-500) <= B2R (g_res gex) <= 1)%R /\ (1 <= bpow radix2 500)%R /\
  (Rabs (B2R (g_xmin gex)) <= bpow radix2 48 * B2R (g_res gex))%R /\
  B2R (g_xmin gex) = (-25 / 2)%R /\ B2R (g_ymin gex) = 3%R /\ B2R (g_res gex) = (/ 16)%R.
Proof.
  destruct (fl_val 1 (-4) ltac:(lia) ltac:(lia)) as [A1 A2].
  destruct (fl_val (-25) (-1) ltac:(lia) ltac:(lia)) as [B1 B2].
  destruct (fl_val 3 0 ltac:(lia) ltac:(lia)) as [C1 C2].
  unfold gex, dims, is_u32. cbn [g_xsize g_ysize g_res g_xmin g_ymin]. rewrite A1, A2, B1, B2, C1, C2.
  change (bpow radix2 (-4)) with (/ 16)%R. change (bpow radix2 (-1)) with (/ 2)%R. change (bpow radix2 0) with 1%R.
  change (bpow radix2 48) with (IZR (2 ^ 48)).
  assert (bpow radix2 (-500) <= bpow radix2 (-4))%R by (apply bpow_le; lia).
  assert (bpow radix2 0 <= bpow radix2 500)%R by (apply bpow_le; lia).
  change (bpow radix2 (-4)) with (/ 16)%R in *. change (bpow radix2 0) with 1%R in *.
  assert (Rabs (-25 * / 2) = 25 / 2)%R by (rewrite Rabs_left; lra).
  repeat split; try lia; try lra.
Qed.
Lemma c06_example_b64 : dims gex /\ 0 < g_xsize gex /\ 0 < g_ysize gex /\
  is_finite (g_res gex) = true /\ is_finite (g_xmin gex) = true /\ is_finite (g_ymin gex) = true /\
  is_finite (fl (-397) (-5)) = true /\ is_finite (fl 25 (-3)) = true /\
  (bpow radix2 (-500) <= B2R (g_res gex) <= bpow radix2 500)%R /\
  (B2R (g_xmin gex) <= B2R (fl (-397) (-5)) <= B2R (g_xmin gex) + IZR (g_xsize gex) * B2R (g_res gex))%R /\
  (B2R (g_ymin gex) <= B2R (fl 25 (-3)) <= B2R (g_ymin gex) + IZR (g_ysize gex) * B2R (g_res gex))%R /\
  (forall L, @world2Grid b64 (F64 L) gex (fl (-397) (-5)) (fl 25 (-3)) = Ok (1, 1)).
Proof.
  destruct gex_ok as (G1 & G2 & G3 & G4 & G5 & G6 & G7 & G8 & G9 & Ex & Ey & Er).
  destruct (fl_val (-397) (-5) ltac:(lia) ltac:(lia)) as [A1 A2].
  destruct (fl_val 25 (-3) ltac:(lia) ltac:(lia)) as [B1 B2].
  change (bpow radix2 (-5)) with (/ 32)%R in A1. change (bpow radix2 (-3)) with (/ 8)%R in B1.
  rewrite Ex, Ey, A1, B1. change (g_xsize gex) with 3. change (g_ysize gex) with 2.
  split; [exact G1|]. rewrite Er in *. repeat split; try assumption; try lia; try lra.
Qed.
Lemma c07_example_b64 : is_finite (g_res gex) = true /\ is_finite (g_xmin gex) = true /\ is_finite (g_ymin gex) = true /\
  is_finite (fl (-13) 0) = true /\ is_finite (fl 3 0) = true /\
  (bpow radix2 (-500) <= B2R (g_res gex) <= 1)%R /\
  (Rabs (B2R (g_xmin gex) - B2R (fl (-13) 0)) <= bpow radix2 400)%R /\
  (Rabs (B2R (g_ymin gex) - B2R (fl 3 0)) <= bpow radix2 400)%R /\ (B2R (fl (-13) 0) < B2R (g_xmin gex))%R.
Proof.
  destruct gex_ok as (G1 & G2 & G3 & G4 & G5 & G6 & G7 & G8 & G9 & Ex & Ey & Er).
  destruct (fl_val (-13) 0 ltac:(lia) ltac:(lia)) as [A1 A2].
  destruct (fl_val 3 0 ltac:(lia) ltac:(lia)) as [B1 B2].
  change (bpow radix2 0) with 1%R in *. rewrite Ex, Ey, A1, B1.
  assert (bpow radix2 0 <= bpow radix2 400)%R by (apply bpow_le; lia). change (bpow radix2 0) with 1%R in *.
  repeat split; try assumption; try lra; try (apply Rabs_le; lra).
Qed.
Lemma c08_example_b64 : is_u32 3 /\ is_finite (g_res gex) = true /\ is_finite (g_xmin gex) = true /\
  (bpow radix2 (-500) <= B2R (g_res gex) <= bpow radix2 500)%R /\
  (Rabs (B2R (g_xmin gex)) <= bpow radix2 48 * B2R (g_res gex))%R /\
  forall L, exists g, @grid_msg_ctor b64 (F64 L) (mkMsg 3 2 (g_res gex) (g_xmin gex) (g_ymin gex) [0; 1; 2; 3; 4; 5]) = Ok g.
Proof.
  destruct gex_ok as (G1 & G2 & G3 & G4 & G5 & G6 & G7 & G8 & G9 & Ex & Ey & Er).
  split; [unfold is_u32; lia|]. repeat split; try assumption; try lra. intros L. eexists. reflexivity.
Qed.
