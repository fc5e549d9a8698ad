(** How far the samples of the dynamic window exceed their limits in binary64. *)
From Coq Require Import Reals Lra ZArith Lia List Psatz.
From Flocq Require Import Core.Core IEEE754.BinarySingleNaN.
From Verif Require Import Outcome Num Float64 FloatLemmas AngleFloat NumericsModel DwaModel SpecDwa SpecLimits GridFloat GridFloat2.
Local Open Scope R_scope.

Lemma samples_b64 (lo sp : b64) (B : R) (m : Z) : is_finite lo = true -> is_finite sp = true -> 0 <= B2R sp ->
  (0 <= m <= 1048576)%Z -> Rabs (B2R lo) <= B -> B2R lo + IZR m * B2R sp <= B -> B <= bpow radix2 990 ->
  forall i, (Z.of_nat i <= m)%Z -> let s := Nat.iter i (fun v : b64 => Bplus mode_NE v sp) lo in
  is_finite s = true /\ B2R lo - INR i * (2 * ueps * B) <= B2R s <= B2R lo + INR i * B2R sp + INR i * (2 * ueps * B).
Proof.
  intros Fl Fs Hs Hm Hl Hu HB. assert (U := ueps_val). apply abs_lt_iff in Hl.
  assert (B0 : 0 <= B) by lra.
  induction i as [|i IH]; intros Hi.
  - cbn. split; [exact Fl|]. lra.
  - change (Nat.iter (S i) (fun v : b64 => Bplus mode_NE v sp) lo) with (Bplus mode_NE (Nat.iter i (fun v : b64 => Bplus mode_NE v sp) lo) sp).
    destruct (IH ltac:(lia)) as [F [A C]]. cbv zeta in *. set (s := Nat.iter i (fun v : b64 => Bplus mode_NE v sp) lo) in *.
    assert (I1 : INR i + 1 <= IZR m) by (rewrite INR_IZR_INZ, <- plus_IZR; apply IZR_le; lia).
    assert (M1 : IZR m <= 1048576) by (apply (IZR_le _ 1048576); lia).
    pose proof (pos_INR i) as I0.
    set (c := 2 * ueps * B) in *.
    assert (C0 : 0 <= c) by (unfold c; rewrite U; lra).
    assert (C1 : INR i * c <= B). { unfold c. rewrite U. nra. }
    assert (X1 : B2R s + B2R sp <= 2 * B).
    { assert ((INR i + 1) * B2R sp <= IZR m * B2R sp) by (apply Rmult_le_compat_r; lra). lra. }
    assert (X2 : - (2 * B) <= B2R s + B2R sp) by lra.
    destruct (fplus_rel s sp F Fs) as [e [He [Ve Fe]]].
    { apply Rabs_le. assert (2 * bpow radix2 990 <= bpow radix2 1000); [|lra].
      replace (bpow radix2 1000) with (bpow radix2 10 * bpow radix2 990) by (rewrite <- bpow_plus; f_equal; lia).
      replace (bpow radix2 10) with 1024 by (cbn; lra). pose proof (bpow_ge_0 radix2 990). lra. }
    assert (D := rel_abs (B2R s + B2R sp) e (2 * B) ueps He ltac:(apply Rabs_le; lra) ltac:(lra)).
    apply abs_lt_iff in D. split; [exact Fe|]. rewrite Ve, S_INR.
    replace (2 * B * ueps) with c in D by (unfold c; ring). lra.
Qed.

Lemma axis_b64 (lo hi : b64) (n : Z) (B : R) : is_finite lo = true -> is_finite hi = true -> B2R lo <= B2R hi ->
  Rabs (B2R lo) <= B -> Rabs (B2R hi) <= B -> B <= bpow radix2 900 -> (n <= 1048576)%Z ->
  forall (L : libm) i, (Z.of_nat i < n)%Z ->
  is_finite (@sample b64 (F64 L) lo hi n i) = true /\
  B2R lo - slack n B <= B2R (@sample b64 (F64 L) lo hi n i) <= B2R hi + slack n B.
Proof.
  intros Fl Fh Hlh Bl Bh HB Hn L i Hi.
  assert (U := ueps_val). apply abs_lt_iff in Bl, Bh. assert (B0 : 0 <= B) by lra.
  assert (V51 : bpow radix2 (-51) = 4 * ueps) by (unfold ueps; cbn; lra).
  assert (V1074 : bpow radix2 (-1074) = 2 * bpow radix2 (-1075)).
  { replace (bpow radix2 (-1074)) with (bpow radix2 1 * bpow radix2 (-1075)) by (rewrite <- bpow_plus; f_equal; lia).
    replace (bpow radix2 1) with 2 by (cbn; lra). reflexivity. }
  pose proof tiny_val as TV. set (tau := bpow radix2 (-1075)) in *.
  unfold slack. rewrite V51, V1074.
  assert (B990 : bpow radix2 900 * 1024 <= bpow radix2 990).
  { replace (bpow radix2 990) with (bpow radix2 900 * bpow radix2 90) by (rewrite <- bpow_plus; f_equal; lia).
    apply Rmult_le_compat_l; [apply bpow_ge_0|]. apply Rle_trans with (bpow radix2 10); [cbn; lra|apply bpow_le; lia]. }
  assert (B1 : 1 <= bpow radix2 900) by (change 1 with (bpow radix2 0); apply bpow_le; lia).
  assert (B1000 : bpow radix2 990 <= bpow radix2 1000) by (apply bpow_le; lia).
  unfold sample, spacing. destruct (Z.ltb_spec 1 n) as [N|N].
  - cbn [nadd nsub ndiv nofZ F64].
    destruct (ofZ_exact (n - 1)) as [Em Fm]; [lia|].
    set (m := (n - 1)%Z) in *. assert (M : 1 <= IZR m <= 1048575).
    { split; [apply (IZR_le 1)|apply (IZR_le _ 1048575)]; unfold m; lia. }
    assert (EN : IZR n = IZR m + 1) by (unfold m; rewrite minus_IZR; lra).
    destruct (fminus_rel hi lo Fh Fl) as [e [He [Ve Fe]]].
    { apply Rabs_le. lra. }
    apply abs_lt_iff in He. set (W := B2R hi - B2R lo) in *. assert (HW : 0 <= W <= 2 * B) by (unfold W; lra).
    set (dw := Bminus mode_NE hi lo) in *.
    assert (D0 : 0 <= B2R dw <= W + ueps * (2 * B)). { rewrite Ve. split; [rewrite U in He; nra|]. assert (W * e <= 2 * B * ueps) by (apply Rle_trans with (W * ueps); [apply Rmult_le_compat_l; lra|apply Rmult_le_compat_r; [rewrite U|]; lra]). lra. }
    assert (Q : 0 <= B2R dw / IZR m <= B2R dw).
    { split; [apply Rmult_le_pos; [lra|left; apply Rinv_0_lt_compat; lra]|].
      apply Rmult_le_reg_r with (IZR m); [lra|]. unfold Rdiv. rewrite Rmult_assoc, Rinv_l, Rmult_1_r by lra. nra. }
    assert (UB : ueps * (2 * B) <= B) by (rewrite U; lra).
    destruct (fdiv_rnd dw (b64_ofZ m) Fe) as [Vq Fq].
    { rewrite Em. lra. }
    { rewrite Em, Rabs_pos_eq by lra. lra. }
    rewrite Em in Vq. set (sp := Bdiv mode_NE dw (b64_ofZ m)) in *.
    assert (S0 : 0 <= B2R sp) by (rewrite Vq; apply round_ge_generic; [typeclasses eauto..|apply generic_format_0|lra]).
    pose proof (rnd_err (B2R dw / IZR m)) as E. rewrite <- Vq, (Rabs_pos_eq (B2R dw / IZR m)) in E by lra. apply abs_lt_iff in E. fold tau in E.
    assert (EM : IZR m * (B2R dw / IZR m) = B2R dw) by (field; lra).
    assert (S1 : IZR m * B2R sp <= B2R dw + ueps * B2R dw + IZR m * tau).
    { apply Rle_trans with (IZR m * (B2R dw / IZR m + ueps * (B2R dw / IZR m) + tau)).
      - apply Rmult_le_compat_l; lra.
      - replace (IZR m * (B2R dw / IZR m + ueps * (B2R dw / IZR m) + tau)) with
          (IZR m * (B2R dw / IZR m) + ueps * (IZR m * (B2R dw / IZR m)) + IZR m * tau) by ring. rewrite EM. lra. }
    assert (S2 : IZR m * B2R sp <= W + 5 * ueps * B + IZR m * tau).
    { assert (ueps * B2R dw <= ueps * (3 * B)) by (apply Rmult_le_compat_l; [rewrite U|]; lra). lra. }
    assert (MT : 0 <= IZR m * tau <= / 1048576) by nra.
    set (B' := B + 5 * ueps * B + IZR m * tau).
    assert (UB5 : 0 <= 5 * ueps * B <= B) by (rewrite U; lra).
    destruct (samples_b64 lo sp B' m Fl Fq S0 ltac:(unfold m in *; lia) ltac:(apply Rabs_le; unfold B'; lra)
                ltac:(unfold B', W in *; lra) ltac:(unfold B'; lra) i ltac:(unfold m; lia)) as [F [A C]].
    cbv zeta in F, A, C. split; [exact F|].
    assert (I1 : INR i <= IZR m) by (rewrite INR_IZR_INZ; apply IZR_le; unfold m; lia).
    pose proof (pos_INR i) as I0.
    assert (C0 : 0 <= 2 * ueps * B' <= 3 * ueps * B + tau).
    { unfold B'. rewrite U in *. split; nra. }
    assert (C1 : INR i * (2 * ueps * B') <= IZR m * (3 * ueps * B + tau)) by (apply Rmult_le_compat; lra).
    assert (C2 : INR i * B2R sp <= IZR m * B2R sp) by (apply Rmult_le_compat_r; lra).
    assert (E3 : 0 <= ueps * B) by (rewrite U; lra). rewrite EN. unfold W in *.
    assert (IZR m * (3 * ueps * B + tau) = 3 * (IZR m * (ueps * B)) + IZR m * tau) by ring.
    assert ((IZR m + 1 + 2) * (4 * ueps * B + 2 * tau) = 4 * (IZR m * (ueps * B)) + 2 * (IZR m * tau) + 12 * (ueps * B) + 6 * tau) by ring.
    assert (0 <= IZR m * (ueps * B)) by (apply Rmult_le_pos; lra).
    split; lra.
  - assert (i = 0%nat) by lia. subst i. cbn [Nat.iter nat_rect]. assert (0 <= IZR n + 2) by (assert (1 <= IZR n) by (apply (IZR_le 1); lia); lra).
    assert (0 <= (IZR n + 2) * (4 * ueps * B + 2 * tau)) by (apply Rmult_le_pos; [lra|rewrite U; lra]). split; [exact Fl|lra].
Qed.

(** ** One axis of the window *)
Lemma Rmax_bounds a b : Rabs a <= Rmax (Rabs a) (Rabs b) /\ Rabs b <= Rmax (Rabs a) (Rabs b).
Proof. split; [apply Rmax_l|apply Rmax_r]. Qed.
Lemma on_axis_b64 (L : libm) (dt v acc vmin vmax x : b64) n : sane_axis vmin vmax (Bmult mode_NE acc dt) ->
  recoverable_axis vmin vmax (Bmult mode_NE acc dt) v -> (n <= 1048576)%Z ->
  @on_axis b64 (F64 L) dt v acc vmin vmax n x -> nearly_within n vmin vmax x.
Proof.
  intros (Fm & FM & Fr & Hm & HM & Hr) (Fv & Hv) Hn (i & Hi & ->). right.
  cbn [nmul F64]. set (r := Bmult mode_NE acc dt) in *.
  assert (B1000 : 4 * bpow radix2 900 <= bpow radix2 1000).
  { replace (bpow radix2 1000) with (bpow radix2 100 * bpow radix2 900) by (rewrite <- bpow_plus; f_equal; lia).
    apply Rmult_le_compat_r; [apply bpow_ge_0|]. apply Rle_trans with (bpow radix2 2); [cbn; lra|apply bpow_le; lia]. }
  destruct (fminus_rnd v r Fv Fr) as [Vl Fl]; [apply Rabs_le; lra|].
  destruct (fplus_rnd v r Fv Fr) as [Vh Fh]; [apply Rabs_le; lra|].
  assert (Ml : B2R (Bminus mode_NE v r) <= B2R vmax).
  { rewrite Vl. apply round_le_generic; [typeclasses eauto..|apply generic_format_B2R|lra]. }
  assert (Mh : B2R vmin <= B2R (Bplus mode_NE v r)).
  { rewrite Vh. apply round_ge_generic; [typeclasses eauto..|apply generic_format_B2R|lra]. }
  assert (Mlh : B2R (Bminus mode_NE v r) <= B2R (Bplus mode_NE v r)).
  { rewrite Vl, Vh. apply round_le; [typeclasses eauto..|lra]. }
  set (lo := @low b64 (F64 L) v r vmin). set (hi := @high b64 (F64 L) v r vmax).
  assert (A : is_finite lo = true /\ B2R vmin <= B2R lo /\ (B2R lo = B2R vmin \/ B2R lo = B2R (Bminus mode_NE v r))).
  { unfold lo, low. cbn [nlt nsub F64]. rewrite Bltb_R by assumption. destruct (Rlt_bool_spec (B2R (Bminus mode_NE v r)) (B2R vmin)).
    - split; [exact Fm|]. split; [lra|left; reflexivity].
    - split; [exact Fl|]. split; [lra|right; reflexivity]. }
  assert (B : is_finite hi = true /\ B2R hi <= B2R vmax /\ (B2R hi = B2R vmax \/ B2R hi = B2R (Bplus mode_NE v r))).
  { unfold hi, high. cbn [nlt nadd F64]. rewrite Bltb_R by assumption. destruct (Rlt_bool_spec (B2R vmax) (B2R (Bplus mode_NE v r))).
    - split; [exact FM|]. split; [lra|left; reflexivity].
    - split; [exact Fh|]. split; [lra|right; reflexivity]. }
  destruct A as (A1 & A2 & A3). destruct B as (B1 & B2 & B3).
  assert (C : B2R lo <= B2R hi) by (destruct A3 as [-> | ->], B3 as [-> | ->]; lra).
  set (Bd := Rmax (Rabs (B2R vmin)) (Rabs (B2R vmax))).
  destruct (Rmax_bounds (B2R vmin) (B2R vmax)) as [R1 R2]. fold Bd in R1, R2. apply abs_lt_iff in R1, R2.
  assert (R3 : Bd <= bpow radix2 900) by (apply Rmax_lub; apply Rabs_le; lra).
  destruct (axis_b64 lo hi n Bd A1 B1 C ltac:(apply Rabs_le; lra) ltac:(apply Rabs_le; lra) R3 Hn L i Hi) as (F & X & Y).
  split; [exact F|]. cbv zeta. fold Bd. lra.
Qed.
Lemma slack_pos n B : (0 <= n)%Z -> 0 <= B -> 0 <= slack n B.
Proof.
  intros Hn HB. unfold slack. apply Rmult_le_pos; [apply (IZR_le 0) in Hn; lra|]. pose proof (bpow_ge_0 radix2 (-51)). pose proof (bpow_ge_0 radix2 (-1074)). nra.
Qed.
Lemma within_nearly n lo hi r x : (0 <= n)%Z -> sane_axis lo hi r ->
  (is_nan x = true \/ (Bleb lo x = true /\ Bleb x hi = true)) -> nearly_within n lo hi x.
Proof.
  intros Hn (Fl & Fh & _ & Hl & Hh & _) [N|[A B]]; [left; exact N|right].
  assert (F : is_finite x = true).
  { destruct lo as [sl|sl| |sl ml el ql], hi as [sh|sh| |sh mh eh qh], x as [s|s| |s m e q]; cbn in Fl, Fh, A, B |- *; try discriminate; try reflexivity;
      destruct s; cbn in A, B; try discriminate; repeat match goal with s : bool |- _ => destruct s end; discriminate. }
  split; [exact F|]. rewrite Bleb_R in A, B by assumption.
  destruct (Rle_bool_spec (B2R lo) (B2R x)) as [A'|A']; [|discriminate]. destruct (Rle_bool_spec (B2R x) (B2R hi)) as [B'|B']; [|discriminate].
  cbv zeta. pose proof (slack_pos n (Rmax (Rabs (B2R lo)) (Rabs (B2R hi))) Hn ltac:(apply Rle_trans with (Rabs (B2R lo)); [apply Rabs_pos|apply Rmax_l])). lra.
Qed.
Lemma zero_nearly n lo hi r : (0 <= n)%Z -> sane_axis lo hi r -> nearly_within n lo hi (b64_ofZ 0).
Proof.
  intros Hn S. destruct zero_val as [Z1 Z2]. right. split; [exact Z2|]. rewrite Z1. destruct S as (_ & _ & _ & Hl & Hh & _). cbv zeta.
  pose proof (slack_pos n (Rmax (Rabs (B2R lo)) (Rabs (B2R hi))) Hn ltac:(apply Rle_trans with (Rabs (B2R lo)); [apply Rabs_pos|apply Rmax_l])). lra.
Qed.
