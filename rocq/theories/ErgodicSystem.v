(** Lemmas on the target coefficients, the total behaviour of control and the system it solves. *)
From Coq Require Import Reals Lra Lia ZArith List ZifyBool Psatz.
From Flocq Require Import Core.
From Coquelicot Require Import Coquelicot.
From Verif Require Import Outcome Num GridModel GridProofs NumericsModel SpecMotion NumericsProofs MotionProofs
  BufferModel BufferProofs BasisModel SpecBasis BasisProofs RobotModel SpecRobot RobotProofs ErgodicModel SpecErgodic ErgodicProofs ErgodicReal.
Import ListNotations.
Ltac Zify.zify_post_hook ::= idtac.
Local Open Scope R_scope.

(** ** C58 *)
Lemma accum_R n : forall a d : R, accum n a d = map (fun i => a + INR i * d) (seq 0 n).
Proof.
  induction n as [|n IH]; intros a d; [reflexivity|]. cbn [accum seq map]. rewrite IH, <- seq_shift, map_map.
  f_equal; [cbn [INR]; ring|]. apply map_ext. intros i. rewrite S_INR. cbn [nadd RNum]. ring.
Qed.
Lemma points_R nx ny (r : R) : (0 <= nx)%Z -> (0 <= ny)%Z -> (nx * ny < two32)%Z ->
  phi_points nx ny r = Ok (lattice (Z.to_nat nx) (Z.to_nat ny) r).
Proof.
  intros X Y H. unfold phi_points, u32. rewrite Z.mod_small by nia. rewrite Z.ltb_irrefl. f_equal.
  unfold lattice. rewrite !accum_R. unfold n0. cbn [nofZ RNum].
  rewrite !flat_map_concat_map, map_map. f_equal. apply map_ext. intros j. rewrite map_map. apply map_ext. intros i. f_equal; ring.
Qed.
Lemma axis_R mx r : 0 < r -> 0 <= mx < r * 4294967294 -> exists n, axis_length n0 mx r = Ok n /\ (0 <= n < two32 - 1)%Z /\
  Rabs (mx - IZR n * r) <= r / 2 /\ IZR n <= mx / r + 1 / 2.
Proof.
  intros Hr H. unfold n0. cbn [nofZ RNum].
  assert (Q : 0 <= mx / r < 4294967294).
  { split; [apply Rdiv_le_0_compat; lra|]. apply Rmult_lt_reg_r with r; [exact Hr|]. unfold Rdiv. rewrite Rmult_assoc, Rinv_l by lra. lra. }
  set (n := ZnearestA ((mx - 0) / r)).
  assert (NR : Rabs ((mx - 0) / r - IZR n) <= / 2) by apply (Znearest_half (Z.leb 0)).
  rewrite Rminus_0_r in NR. apply Rabs_le_between in NR.
  assert (NN : (0 <= n < two32 - 1)%Z).
  { split; [apply le_IZR|apply lt_IZR].
    - assert (-1 < IZR n) by lra. apply lt_IZR in H0. apply IZR_le. lia.
    - change (IZR (two32 - 1)) with 4294967295. lra. }
  assert (A : axis_length 0 mx r = Ok n).
  { unfold axis_length, to_u32. cbn [nround nsub ndiv ntrunc RNum]. fold n. rewrite Ztrunc_IZR.
    destruct (Z.leb_spec 0 n); [|lia]. destruct (Z.ltb_spec n two32); [reflexivity|lia]. }
  exists n. split; [exact A|]. split; [exact NN|]. split; [|lra].
  pose proof (axis_length_nearest 0 mx r n Hr A) as L. rewrite Rminus_0_r in L. exact L.
Qed.
Lemma evaluate_bumps ps t x y ox oy : describes ps t -> evaluate t (x, y) (ox, oy) = bumps ps (x + ox) (y + oy).
Proof.
  intros D. rewrite evaluate_sum. unfold bumps. f_equal. induction D as [|[[[mx my] sx] sy] g ps t (H1 & H2 & H3) D IH]; [reflexivity|].
  cbn [map]. rewrite IH. f_equal. apply gauss_bump; assumption.
Qed.
Lemma combine_self {A B} (f : A -> B) l : combine l (map f l) = map (fun p => (p, f p)) l.
Proof. induction l; cbn; congruence. Qed.
Lemma coeffs_R (bs : basis R) t ps ox oy nx ny r cs : describes ps t ->
  spatialCoeff bs (fill t (ox, oy) (lattice nx ny r)) (lattice nx ny r) = Ok cs ->
  length cs = length (bs_k bs) /\
  forall i k, nth_error (bs_k bs) i = Some k -> nth_error cs i = Some (target_coeff ps ox oy (bs_lx bs) (bs_ly bs) r nx ny k).
Proof.
  intros D. set (pts := lattice nx ny r). set (phi := fun p : R * R => bumps ps (fst p + ox) (snd p + oy)).
  assert (F : fill t (ox, oy) pts = map (fun p => phi p / rsum (map phi pts)) pts).
  { unfold fill. rewrite vsum_rsum, map_map.
    assert (E : map (fun pt => evaluate t pt (ox, oy)) pts = map phi pts) by (apply map_ext; intros [x y]; apply (evaluate_bumps _ _ _ _ _ _ D)).
    rewrite E. apply map_ext. intros [x y]. cbn [ndiv RNum]. f_equal. apply (evaluate_bumps _ _ _ _ _ _ D). }
  rewrite F. intros S. split.
  - unfold spatialCoeff in S. destruct (_ <? _)%Z; [discriminate|]. injection S as <-. apply row_sum_length.
    apply Forall_forall. intros c Hc. apply in_map_iff in Hc. destruct Hc as (p & <- & _). unfold fourierBasis. rewrite !map_length. reflexivity.
  - intros i k K. destruct (c38_spatial bs (map (fun p => phi p / rsum (map phi pts)) pts) pts i k (map_length _ _) K) as (cs' & E & N).
    rewrite S in E. injection E as <-. rewrite N. f_equal. unfold target_coeff. fold pts. fold phi.
    rewrite combine_self, map_map. cbn [fst snd]. set (s := rsum (map phi pts)). change (?a / s) with (a * / s).
    rewrite <- (rsum_scale (/ s)), map_map. f_equal. apply map_ext.
    intros p. change (bumps ps (fst p + ox) (snd p + oy)) with (phi p). unfold Rdiv. ring.
Qed.
Lemma not_same a b c d : 1 / 1000000000000 <= Rabs (a - b) \/ 1 / 1000000000000 <= Rabs (c - d) ->
  (almost_equal a b && almost_equal c d)%bool = false.
Proof.
  intros [H|H]; apply almost_equal_Rf in H; rewrite H; [reflexivity|apply andb_false_r].
Qed.
Section Config.
Variables (e : ec R) (g : grid R).
Let mx := g_xmax g - g_xmin g.
Let my := g_ymax g - g_ymin g.
Hypothesis Hr : 0 < ec_resolution e.
Hypothesis Hx : 0 <= mx.
Hypothesis Hy : 0 <= my.
Hypothesis Hsize : (mx / ec_resolution e + 3 / 2) * (my / ec_resolution e + 3 / 2) < 4294967296.
Lemma config_sizes : exists ax ay, axis_length n0 mx (ec_resolution e) = Ok ax /\ axis_length n0 my (ec_resolution e) = Ok ay /\
  (0 <= ax < two32 - 1)%Z /\ (0 <= ay < two32 - 1)%Z /\ ((ax + 1) * (ay + 1) < two32)%Z /\
  Rabs (mx - IZR ax * ec_resolution e) <= ec_resolution e / 2 /\ Rabs (my - IZR ay * ec_resolution e) <= ec_resolution e / 2.
Proof.
  set (r := ec_resolution e) in *. assert (A : 0 <= mx / r) by (apply Rdiv_le_0_compat; lra). assert (B : 0 <= my / r) by (apply Rdiv_le_0_compat; lra).
  assert (AX : mx < r * 4294967294).
  { apply Rmult_lt_reg_r with (/ r); [apply Rinv_0_lt_compat; exact Hr|]. replace (r * 4294967294 * / r) with 4294967294 by (field; lra). fold (mx / r). nra. }
  assert (AY : my < r * 4294967294).
  { apply Rmult_lt_reg_r with (/ r); [apply Rinv_0_lt_compat; exact Hr|]. replace (r * 4294967294 * / r) with 4294967294 by (field; lra). fold (my / r). nra. }
  destruct (axis_R mx r Hr (conj Hx AX)) as (ax & Ex & Rx & Nx & Lx). destruct (axis_R my r Hr (conj Hy AY)) as (ay & Ey & Ry & Ny & Ly).
  exists ax, ay. repeat (split; [assumption|]). split; [|split; assumption].
  apply lt_IZR. rewrite mult_IZR, !plus_IZR. change (IZR two32) with 4294967296.
  assert (0 <= IZR ax) by (apply IZR_le; lia). assert (0 <= IZR ay) by (apply IZR_le; lia). nra.
Qed.
Lemma config_total : exists e', configTarget e g = Ok e' /\
  (ec_phik e <> None \/ 1 / 1000000000000 <= Rabs (mx - bs_lx (ec_basis e)) \/ 1 / 1000000000000 <= Rabs (my - bs_ly (ec_basis e)) -> ec_phik e' <> None).
Proof.
  destruct config_sizes as (ax & ay & Ex & Ey & Rx & Ry & P & _). unfold configTarget.
  change (nsub (g_xmax g) (g_xmin g)) with mx. change (nsub (g_ymax g) (g_ymin g)) with my.
  destruct (_ && _)%bool eqn:AE.
  - eexists. split; [reflexivity|]. cbn [set_domain ec_phik]. intros [H|H]; [exact H|]. rewrite (not_same _ _ _ _ H) in AE. discriminate.
  - cbn [bs_lam bs_k]. rewrite Ex, Ey. cbn [bind]. unfold u32. rewrite !Z.mod_small by lia. rewrite points_R by lia. cbn [bind].
    set (pts := lattice _ _ _). unfold spatialCoeff.
    assert (LF : lenZ (fill (ec_target e) (g_xmin g, g_ymin g) pts) = lenZ pts) by (unfold fill, lenZ; rewrite !map_length; reflexivity).
    rewrite LF, Z.ltb_irrefl. cbn [bind]. eexists. split; [reflexivity|]. intros _. discriminate.
Qed.
Lemma config_recomputed e' ps : describes ps (ec_target e) ->
  1 / 1000000000000 <= Rabs (mx - bs_lx (ec_basis e)) \/ 1 / 1000000000000 <= Rabs (my - bs_ly (ec_basis e)) ->
  configTarget e g = Ok e' ->
  tracks e' ps g.
Proof.
  intros D H. destruct config_sizes as (ax & ay & Ex & Ey & Rx & Ry & P & Nx & Ny). unfold configTarget.
  change (nsub (g_xmax g) (g_xmin g)) with mx. change (nsub (g_ymax g) (g_ymin g)) with my.
  rewrite (not_same _ _ _ _ H), Ex, Ey. cbn [bind]. unfold u32. rewrite !Z.mod_small by lia. rewrite points_R by lia. cbn [bind].
  destruct (spatialCoeff _ _ _) as [cs| | |] eqn:SC; cbn [bind]; try discriminate. intros E. injection E as <-.
  unfold tracks. cbn [set_domain ec_basis ec_map_pos ec_phik ec_resolution bs_lx bs_ly bs_k]. cbn zeta. fold mx my.
  split; [reflexivity|]. split; [reflexivity|]. split; [reflexivity|].
  exists (Z.to_nat ax), (Z.to_nat ay), cs. rewrite !INR_IZR_INZ, !Z2Nat.id by lia. split; [exact Nx|]. split; [exact Ny|]. split; [reflexivity|].
  rewrite !Z2Nat.inj_add in SC by lia. change (Z.to_nat 1) with 1%nat in SC. rewrite !Nat.add_1_r in SC.
  destruct (coeffs_R _ _ _ _ _ _ _ _ _ D SC) as [L N]. split; [exact L|]. exact N.
Qed.
End Config.
Lemma config_unchanged (e : ec R) g :
  Rabs (g_xmax g - g_xmin g - bs_lx (ec_basis e)) < 1 / 1000000000000 -> Rabs (g_ymax g - g_ymin g - bs_ly (ec_basis e)) < 1 / 1000000000000 ->
  exists e', configTarget e g = Ok e' /\ ec_phik e' = ec_phik e /\ ec_basis e' = ec_basis e /\ ec_map_pos e' = (g_xmin g, g_ymin g).
Proof.
  intros Hx Hy. unfold configTarget. cbn [nsub RNum].
  rewrite (proj2 (almost_equal_R _ _) Hx), (proj2 (almost_equal_R _ _) Hy). eexists. split; [reflexivity|]. repeat split.
Qed.

Lemma control_config {T} {NT : Num T} (e e' : ec T) g x draws u : ec_control e g x draws = Ok (u, e') ->
  exists e1, configTarget (set_pose e x) g = Ok e1 /\ e' = set_ut e1 (ec_ut e').
Proof.
  intros C. destruct (control_dec _ _ _ _ _ _ C) as (e1 & tr & to & ed & rh & D). cbn zeta in D. destruct D as (C1 & _ & _ & _ & _ & _ & _ & _ & -> & _).
  exists e1. split; [exact C1|reflexivity].
Qed.
(** Coefficient (1, 0) of one Gaussian on the y axis, over the four corners of the unit square. *)
Lemma corner_coeff m ox : target_coeff [(m, 0, 1, 1)] ox 0 1 1 1 2 2 (1%Z, 0%Z) =
  (exp (- (ox - m) ^ 2 / 2) - exp (- (1 + ox - m) ^ 2 / 2)) / (exp (- (ox - m) ^ 2 / 2) + exp (- (1 + ox - m) ^ 2 / 2)).
Proof.
  unfold target_coeff, lattice, bumps, bump, mode, rsum. cbn [seq flat_map map fold_right app fst snd INR].
  set (A := exp (- (ox - m) ^ 2 / 2)). set (B := exp (- (1 + ox - m) ^ 2 / 2)). set (q := exp (- (1 / 2))).
  assert (E1 : exp (- ((0 * 1 + ox - m) * (0 * 1 + ox - m) / (1 * 1) + (0 * 1 + 0 - 0) * (0 * 1 + 0 - 0) / (1 * 1)) / 2) = A) by (unfold A; f_equal; field).
  assert (E2 : exp (- ((1 * 1 + ox - m) * (1 * 1 + ox - m) / (1 * 1) + (0 * 1 + 0 - 0) * (0 * 1 + 0 - 0) / (1 * 1)) / 2) = B) by (unfold B; f_equal; field).
  assert (E3 : exp (- ((0 * 1 + ox - m) * (0 * 1 + ox - m) / (1 * 1) + (1 * 1 + 0 - 0) * (1 * 1 + 0 - 0) / (1 * 1)) / 2) = A * q) by (unfold A, q; rewrite <- exp_plus; f_equal; field).
  assert (E4 : exp (- ((1 * 1 + ox - m) * (1 * 1 + ox - m) / (1 * 1) + (1 * 1 + 0 - 0) * (1 * 1 + 0 - 0) / (1 * 1)) / 2) = B * q) by (unfold B, q; rewrite <- exp_plus; f_equal; field).
  rewrite E1, E2, E3, E4.
  replace (1 * PI * (0 * 1) / 1) with 0 by field. replace (1 * PI * (1 * 1) / 1) with PI by field.
  replace (0 * PI * (0 * 1) / 1) with 0 by field. replace (0 * PI * (1 * 1) / 1) with 0 by field. rewrite cos_0, cos_PI.
  assert (0 < A) by apply exp_pos. assert (0 < B) by apply exp_pos. assert (0 < q) by apply exp_pos. field.
  split; [lra|]. assert (0 < A * q) by (apply Rmult_lt_0_compat; assumption). assert (0 < B * q) by (apply Rmult_lt_0_compat; assumption). lra.
Qed.
Lemma corner_signs : 0 < target_coeff [(0, 0, 1, 1)] 0 0 1 1 1 2 2 (1%Z, 0%Z) /\ target_coeff [(1, 0, 1, 1)] 0 0 1 1 1 2 2 (1%Z, 0%Z) < 0 /\
  0 < target_coeff [(1, 0, 1, 1)] 1 0 1 1 1 2 2 (1%Z, 0%Z).
Proof.
  assert (H : exp (- (1 / 2)) < exp 0) by (apply exp_increasing; lra). pose proof (exp_pos (- (1 / 2))).
  assert (E : forall a b c d, a = c -> b = d -> (a - b) / (a + b) = (c - d) / (c + d)) by (intros; subst; reflexivity).
  rewrite !corner_coeff.
  split; [|split].
  - rewrite (E _ _ (exp 0) (exp (- (1 / 2)))) by (f_equal; field). apply Rdiv_lt_0_compat; lra.
  - rewrite (E _ _ (exp (- (1 / 2))) (exp 0)) by (f_equal; field). rewrite exp_0 in *.
    replace ((exp (- (1 / 2)) - 1) / (exp (- (1 / 2)) + 1)) with (- ((1 - exp (- (1 / 2))) / (exp (- (1 / 2)) + 1))) by (field; lra).
    apply Ropp_lt_gt_0_contravar. apply Rdiv_lt_0_compat; lra.
  - rewrite (E _ _ (exp 0) (exp (- (1 / 2)))) by (f_equal; field). apply Rdiv_lt_0_compat; lra.
Qed.
(** A controller on the unit square. *)
Definition unit_ec (t : target R) : ec R := mkEC omni_plant (1 / 10) (1 / 2) 1 1 5 (diag 1 1 1) (repeat (V3 0 0 0) 5) None (V3 0 0 0) (0, 0)
  (V3 (-1) (-1) (-1)) (V3 1 1 1) (V3 0 0 0) (mkBasis 0 0 (map weight (basis_numbers 2)) (basis_numbers 2)) (buffer_ctor 10 5) t.
Lemma unit_constructed : constructed (unit_ec []).
Proof.
  exists omni_plant, (1 / 10), (1 / 2), 1, 1, 2%Z, 10%Z, 5%Z, (diag 1 1 1), (V3 (-1) (-1) (-1)), (V3 1 1 1). split; [cbv; repeat split; intro; discriminate|].
  unfold ec_ctor. rewrite steps_example. cbn [bind]. rewrite ctor_ok by lia. reflexivity.
Qed.
Definition square (x : R) : grid R := mkGrid 1 1 1 x 0 (x + 1) 1 [0%Z].
Definition peak (m : R) : target R := [mkGaussian (m, 0) (1 * 1, 1 * 1) (1 / (1 * 1), 1 / (1 * 1))].
Lemma peak_describes m : describes [(m, 0, 1, 1)] (peak m).
Proof. constructor; [|constructor]. split; [lra|]. split; [lra|]. apply gaussian_ok; lra. Qed.
Lemma unit_config m : exists e, configTarget (setTarget (unit_ec []) (peak m)) (square 0) = Ok e /\ tracks e [(m, 0, 1, 1)] (square 0).
Proof.
  set (e0 := setTarget (unit_ec []) (peak m)).
  assert (X : g_xmax (square 0) - g_xmin (square 0) = 1) by (cbn; lra). assert (Y : g_ymax (square 0) - g_ymin (square 0) = 1) by (cbn; lra).
  destruct (config_total e0 (square 0)) as (e & C & _); rewrite ?X, ?Y; cbn [e0 setTarget set_target unit_ec ec_resolution]; try lra.
  exists e. split; [exact C|]. apply (config_recomputed e0 (square 0)); rewrite ?X, ?Y; cbn [e0 setTarget set_target unit_ec ec_resolution ec_basis bs_lx ec_target]; try lra.
  - apply peak_describes.
  - left. rewrite Rminus_0_r, Rabs_R1. lra.
  - exact C.
Qed.
Lemma near_one n : Rabs (1 - INR n * 1) <= 1 / 2 -> n = 1%nat.
Proof.
  intros H. apply Rabs_le_between in H. destruct n as [|[|n]]; [cbn in H; lra|reflexivity|]. rewrite !S_INR in H. pose proof (pos_INR n). lra.
Qed.
Lemma unit_coeff (e : ec R) ps x : ec_resolution e = 1 -> tracks e ps (square x) -> bs_k (ec_basis e) = basis_numbers 2 ->
  exists cs, ec_phik e = Some cs /\ nth_error cs 1 = Some (target_coeff ps x 0 1 1 1 2 2 (1%Z, 0%Z)).
Proof.
  intros Re (_ & _ & _ & nx & ny & cs & Nx & Ny & P & _ & C) K. rewrite Re in *.
  assert (X : g_xmax (square x) - g_xmin (square x) = 1) by (cbn; lra). assert (Y : g_ymax (square x) - g_ymin (square x) = 1) by (cbn; lra).
  rewrite X, Y in *. rewrite (near_one _ Nx), (near_one _ Ny) in C. exists cs. split; [exact P|]. apply (C 1%nat). rewrite K. reflexivity.
Qed.
Lemma c58_refuted_target : exists e e' g ps t, reachable e /\ describes ps t /\ configTarget (setTarget e t) g = Ok e' /\ ~ tracks e' ps g.
Proof.
  destruct (unit_config 0) as (e & C & Tr). pose proof (config_kept _ _ _ C) as K.
  destruct (config_unchanged (setTarget e (peak 1)) (square 0)) as (e' & C' & Ph & Ba & _).
  { cbn [setTarget set_target ec_basis]. destruct Tr as (-> & _). rewrite Rminus_eq_0, Rabs_R0. lra. }
  { cbn [setTarget set_target ec_basis]. destruct Tr as (_ & -> & _). rewrite Rminus_eq_0, Rabs_R0. lra. }
  exists e, e', (square 0), [(1, 0, 1, 1)], (peak 1). split.
  { exists (unit_ec []). split; [apply unit_constructed|]. eapply history_snoc; [eapply history_snoc; [constructor|apply (call_target _ (peak 0))]|].
    eapply call_config. exact C. }
  split; [apply peak_describes|]. split; [exact C'|]. intros Tr'.
  assert (R1 : ec_resolution e = 1) by apply K. assert (K1 : bs_k (ec_basis e) = basis_numbers 2) by apply K.
  assert (R2 : ec_resolution e' = 1) by (pose proof (config_kept _ _ _ C') as K'; destruct K' as (_ & _ & _ & -> & _); exact R1).
  destruct (unit_coeff e _ 0 R1 Tr K1) as (cs & P1 & N1).
  assert (K2 : bs_k (ec_basis e') = basis_numbers 2) by (rewrite Ba; exact K1).
  destruct (unit_coeff e' _ 0 R2 Tr' K2) as (cs' & P2 & N2). rewrite Ph in P2. cbn [setTarget set_target ec_phik] in P2. rewrite P1 in P2. injection P2 as <-.
  rewrite N1 in N2. injection N2 as N2. pose proof corner_signs. lra.
Qed.
Lemma c58_refuted_origin : exists e e' g ps, reachable e /\ describes ps (ec_target e) /\ configTarget e g = Ok e' /\ ~ tracks e' ps g.
Proof.
  destruct (unit_config 1) as (e & C & Tr). pose proof (config_kept _ _ _ C) as K.
  destruct (config_unchanged e (square 1)) as (e' & C' & Ph & Ba & _).
  { destruct Tr as (-> & _). cbn. replace (1 + 1 - 1 - (0 + 1 - 0)) with 0 by ring. rewrite Rabs_R0. lra. }
  { destruct Tr as (_ & -> & _). cbn. rewrite Rminus_eq_0, Rabs_R0. lra. }
  exists e, e', (square 1), [(1, 0, 1, 1)]. split.
  { exists (unit_ec []). split; [apply unit_constructed|]. eapply history_snoc; [eapply history_snoc; [constructor|apply (call_target _ (peak 1))]|].
    eapply call_config. exact C. }
  split.
  { destruct (config_same _ _ _ C) as (ph & bs & -> & _). apply peak_describes. }
  split; [exact C'|]. intros Tr'.
  assert (R1 : ec_resolution e = 1) by apply K. assert (K1 : bs_k (ec_basis e) = basis_numbers 2) by apply K.
  assert (R2 : ec_resolution e' = 1) by (pose proof (config_kept _ _ _ C') as K'; destruct K' as (_ & _ & _ & -> & _); exact R1).
  destruct (unit_coeff e _ 0 R1 Tr K1) as (cs & P1 & N1).
  assert (K2 : bs_k (ec_basis e') = basis_numbers 2) by (rewrite Ba; exact K1).
  destruct (unit_coeff e' _ 1 R2 Tr' K2) as (cs' & P2 & N2). rewrite Ph in P2. rewrite P1 in P2. injection P2 as <-.
  rewrite N1 in N2. injection N2 as N2. pose proof corner_signs. lra.
Qed.

(** ** C57, C62 *)
Lemma Ok_eq {A} (a b : A) : Ok a = Ok b -> a = b.
Proof. congruence. Qed.
Lemma c57_path (e : ec R) ps : reachable e -> ec_path e = Ok ps -> exists tr, optTraj e = Ok tr /\ lenZ tr = ec_steps e /\ lenZ ps = ec_steps e /\
  forall i x, nth_error tr i = Some x -> exists p, nth_error ps i = Some p /\ p_x p = v0 x /\ p_y p = v1 x /\
    qx (p_q p) = 0 /\ qy (p_q p) = 0 /\ qz (p_q p) * qz (p_q p) + qw (p_q p) * qw (p_q p) = 1 /\
    same_angle (getYaw (qx (p_q p)) (qy (p_q p)) (qz (p_q p)) (qw (p_q p))) (v2 x).
Proof.
  intros Rch H. pose proof (reachable_inv _ Rch) as I. destruct (optTraj e) as [tr| | |] eqn:O.
  2-4: (pose proof (path_fails e) as F; rewrite O, H in F; discriminate (F eq_refl)).
  pose proof (path_ok e tr I O) as P. rewrite P in H. apply Ok_eq in H. subst ps. exists tr. split; [reflexivity|].
  assert (LT : lenZ tr = ec_steps e).
  { unfold optTraj, rk4_solve in O. rewrite (i_steps _ I) in O. cbn [bind] in O. apply rk4_loop_len in O.
    pose proof (steps_range _ _ _ (i_steps _ I)). unfold lenZ. lia. }
  split; [exact LT|]. split; [unfold lenZ in *; rewrite map_length; exact LT|].
  intros i x X. eexists. split; [apply (map_nth_error _ _ _ X)|]. cbn [p_x p_y p_q]. split; [reflexivity|]. split; [reflexivity|].
  set (th := v2 x). destruct (c20_wrap th) as [W1 W2]. set (w := normalize_angle_PI th) in *.
  assert (Q : setRPY 0 0 w = Q4 0 0 (sin (w / 2)) (cos (w / 2))).
  { unfold setRPY, lit. rrn. rewrite !Rmult_0_l, sin_0, cos_0. replace (w / 2) with (w * (1 / 2)) by field. f_equal; ring. }
  change (@n0 R RNum) with 0. rewrite Q. cbn [qx qy qz qw]. split; [reflexivity|]. split; [reflexivity|].
  split; [apply sc1|]. pose proof PI_RGT_0.
  destruct (Req_dec w (- PI)) as [E|E].
  - eapply same_angle_trans; [|exact W2]. rewrite E.
    replace (getYaw 0 0 (sin (- PI / 2)) (cos (- PI / 2))) with PI.
    + exists 1%Z. ring.
    + rewrite <- (c22_yaw (-1) PI) at 1 by lra.
      replace (- PI / 2) with (- (PI / 2)) by field. rewrite sin_neg, cos_neg, cos_PI2. f_equal; ring.
  - eapply same_angle_trans; [|exact W2].
    rewrite <- (Rmult_1_l (sin (w / 2))), <- (Rmult_1_l (cos (w / 2))). rewrite c22_yaw by lra.
    exists 0%Z. ring.
Qed.
Lemma steps_one dt h n : dt <> 0 -> num_steps dt h = Ok n ->
  (n = 1%Z <-> Rabs dt <= Rabs h < 2 * Rabs dt) /\ (n = 0%Z <-> Rabs h < Rabs dt).
Proof.
  intros D N. destruct (c27_steps dt h n D N) as (P & A & B). pose proof (Rabs_pos_lt dt D) as Q. split; split.
  - intros ->. lra.
  - intros (H1 & H2). assert (IZR n < 2) by nra. assert (0 < IZR n) by nra. apply lt_IZR in H, H0. lia.
  - intros ->. lra.
  - intros H. assert (IZR n < 1) by nra. apply lt_IZR in H0. lia.
Qed.

(** ** C71: the call succeeds *)
Lemma sample_split {T} (b : buffer T) draws xt total : sampleMemory b draws xt = Ok total ->
  exists cs, m_cols total = cs ++ m_cols xt /\ Forall (fun c => exists k, mem_at (b_mem b) k = Ok c /\ lenZ c = m_rows xt) cs /\
  exists ks, (lenZ (b_mem b) <= b_batch b -> ks = zseq (length (b_mem b)))%Z /\ (b_batch b < lenZ (b_mem b) -> b_mem b <> [] -> ks = map u32 draws)%Z /\
    Forall2 (fun k c => mem_at (b_mem b) k = Ok c) ks cs.
Proof.
  assert (F : forall ks cs, fetch (b_mem b) (m_rows xt) ks = Ok cs -> Forall (fun c => exists k, mem_at (b_mem b) k = Ok c /\ lenZ c = m_rows xt) cs /\
    Forall2 (fun k c => mem_at (b_mem b) k = Ok c) ks cs).
  { induction ks as [|k ks IH]; intros cs; cbn [fetch]; [intros E; injection E as <-; split; constructor|].
    destruct (mem_at _ k) as [v| | |] eqn:M; cbn [bind]; try discriminate. unfold check_col. destruct (Z.eqb_spec (lenZ v) (m_rows xt)); cbn [bind]; try discriminate.
    destruct (fetch _ _ ks) eqn:Fk; cbn [bind]; try discriminate. intros E. injection E as <-. destruct (IH _ eq_refl). split; constructor; eauto. }
  assert (Cp : forall cs, copy_tail cs xt = Ok total -> m_cols total = cs ++ m_cols xt).
  { intros cs. unfold copy_tail. destruct (m_cols xt) eqn:M; [discriminate|]. intros E. injection E as <-. cbn [m_cols]. reflexivity. }
  unfold sampleMemory. destruct (b_mem b) eqn:M.
  - intros E. injection E as <-. exists []. split; [reflexivity|]. split; [constructor|]. exists []. split; [reflexivity|]. split; [congruence|constructor].
  - rewrite <- M in *. destruct (_ <=? _)%Z eqn:Le; [|destruct (_ <? _)%Z; [discriminate|]].
    + destruct (fetch _ _ _) as [cs| | |] eqn:Fk; cbn [bind]; try discriminate. intros E. exists cs. split; [apply Cp; exact E|]. destruct (F _ _ Fk) as [F1 F2].
      split; [exact F1|]. eexists. split; [|split; [|exact F2]]; [reflexivity|lia].
    + destruct (fetch _ _ _) as [cs| | |] eqn:Fk; cbn [bind]; try discriminate. intros E. exists cs. split; [apply Cp; exact E|]. destruct (F _ _ Fk) as [F1 F2].
      split; [exact F1|]. eexists. split; [|split; [|exact F2]]; [lia|reflexivity].
Qed.
Lemma sample_total {T} {NT : Num T} (e : ec T) draws (tr : list (vec3 T)) : inv e -> (b_size (ec_buffer e) < 2 ^ 31)%Z -> (0 <= b_batch (ec_buffer e))%Z -> tr <> [] ->
  drawable (ec_buffer e) draws -> exists total, sampleMemory (ec_buffer e) draws (mkMat 3 (map to_col tr)) = Ok total.
Proof.
  intros I S B N D. destruct (i_buf _ I) as (hist & Sz & E).
  assert (F : Forall (fun v : list T => lenZ v = 3%Z) (map to_col hist)) by (apply Forall_forall; intros v Hv; apply in_map_iff in Hv; destruct Hv as (p & <- & _); reflexivity).
  assert (NC : m_cols (mkMat 3 (map to_col tr)) <> []) by (cbn [m_cols]; destruct tr; [congruence|discriminate]).
  pose proof (c18_size (b_size (ec_buffer e)) (b_batch (ec_buffer e)) (map to_col hist) Sz) as L. rewrite <- E in L.
  destruct (Z_le_gt_dec (lenZ (b_mem (ec_buffer e))) (b_batch (ec_buffer e))) as [H|H].
  - rewrite L in H. rewrite E. cbn [b_size b_batch]. eexists. apply c19_small; try assumption.
  - destruct D as [D|[D1 D2]]; [lia|]. rewrite L in D2, H. rewrite E. 
    destruct (c19_large (b_size (ec_buffer e)) (b_batch (ec_buffer e)) (map to_col hist) draws (mkMat 3 (map to_col tr)) ltac:(lia) F NC ltac:(lia) B D1 D2) as (sm & X & _).
    eexists. exact X.
Qed.
Lemma simple_is_omni (x u : vec3 R) : v1 u = 0 -> simple_f x u = Ok (omni_f x u).
Proof.
  intros H. rewrite simple_ok by (rewrite H, Rabs_R0; lra). f_equal. rewrite omni_body. unfold body. apply V3_eq; rewrite ?H; ring.
Qed.
Lemma cart_solves dt h x (ut : list (vec3 R)) : Forall (fun u => v1 u = 0) ut ->
  rk4_solve dt (rb_f simple_cart) x ut h = rk4_solve dt (rb_f omni) x ut h.
Proof.
  intros F. unfold rk4_solve. destruct (num_steps dt h) as [n| | |]; cbn [bind]; try reflexivity. generalize (Z.to_nat n). clear n. intros n.
  revert x n. induction F as [|u ut H F IH]; intros x n; destruct n as [|n]; cbn [rk4_loop]; try reflexivity.
  assert (E : rk4_step dt (rb_f simple_cart) x u = rk4_step dt (rb_f omni) x u).
  { unfold rk4_step. cbn [rb_f simple_cart omni]. do 4 (rewrite (simple_is_omni _ u H); cbn [bind]). reflexivity. }
  rewrite E. destruct (rk4_step dt (rb_f omni) x u); cbn [bind]; try reflexivity. rewrite IH. reflexivity.
Qed.
Lemma columns_straight (e : ec R) : reachable e -> limits e -> ec_model e = cart_plant -> v1 (ec_umin e) = 0 -> v1 (ec_umax e) = 0 ->
  Forall (fun u => v1 u = 0) (ec_ut e).
Proof.
  intros (e0 & C & H) (L0 & L1 & L2) M Z1 Z2. pose proof (history_kept _ _ H) as (K & _ & _ & _ & _ & _ & _ & _ & Um & UM & _).
  rewrite Um, UM in *. destruct (c55_history e0 e C L0 L1 L2 H) as ([F|F] & _); eapply Forall_impl; try exact F; cbn beta.
  - intros u ->. reflexivity.
  - intros u (_ & U & _). lra.
Qed.
Lemma fresh_domain (e : ec R) : reachable e -> ec_phik e = None -> bs_lx (ec_basis e) = 0 /\ bs_ly (ec_basis e) = 0.
Proof.
  intros (e0 & (m & dt & h & r & w & nb & size & batch & Ri & umin & umax & (H1 & H2 & H3) & C) & H).
  assert (G : forall a b g, configTarget a g = Ok b -> (ec_phik a = None -> bs_lx (ec_basis a) = 0 /\ bs_ly (ec_basis a) = 0) -> ec_phik b = None -> bs_lx (ec_basis b) = 0 /\ bs_ly (ec_basis b) = 0).
  { intros a b g. unfold configTarget. destruct (_ && _)%bool; [intros E; injection E as <-; exact (fun H => H)|].
    destruct (axis_length _ _ _); cbn [bind]; try discriminate. destruct (axis_length _ _ _); cbn [bind]; try discriminate.
    destruct (phi_points _ _ _); cbn [bind]; try discriminate. destruct (spatialCoeff _ _ _); cbn [bind]; try discriminate.
    intros E. injection E as <-. intros _. discriminate. }
  induction H as [|e1 e2 H IH K].
  - intros _. destruct (ctor_inv _ _ _ _ _ _ _ _ _ _ _ _ H1 H2 C) as (_ & _ & B). unfold basis_ctor in B.
    destruct (_ <? _)%Z; [injection B as <-; split; reflexivity|]. destruct (_ && _)%bool in B; discriminate B.
  - destruct K as [e1 g x draws u e2 K|e1 x|e1 t|e1 g e2 K]; try exact IH; [|exact (G _ _ _ K IH)].
    destruct (control_dec _ _ _ _ _ _ K) as (e3 & tr & to & ed & rh & D). cbn zeta in D. destruct D as (C1 & _ & _ & _ & _ & _ & _ & _ & -> & _).
    cbn [set_ut ec_phik ec_basis]. exact (G _ _ _ C1 IH).
Qed.
Lemma control_total (e : ec R) g x draws : reachable e -> limits e -> node_model e -> (2 <= ec_steps e)%Z ->
  0 < ec_resolution e -> g_xmin g <= g_xmax g -> g_ymin g <= g_ymax g ->
  ((g_xmax g - g_xmin g) / ec_resolution e + 3 / 2) * ((g_ymax g - g_ymin g) / ec_resolution e + 3 / 2) < 4294967296 ->
  (b_size (ec_buffer e) < 2 ^ 31)%Z -> (0 <= b_batch (ec_buffer e))%Z -> drawable (ec_buffer e) draws ->
  exists e1, configTarget (set_pose e x) g = Ok e1 /\
  (ec_phik e1 = None -> ec_control e g x draws = UB UUninit) /\
  (ec_phik e1 <> None -> exists u e', ec_control e g x draws = Ok (u, e')).
Proof.
  intros Rch Lm M St Hr Hx Hy Sz BS BB Dr. pose proof (reachable_inv _ Rch) as I.
  destruct (config_total (set_pose e x) g Hr ltac:(lra) ltac:(lra) Sz) as (e1 & C1 & _). exists e1. split; [exact C1|].
  destruct (config_same _ _ _ C1) as (ph & bs & E1 & L & K). pose proof (i_len _ I) as LU. pose proof (i_steps _ I) as NS.
  assert (Sh : shift_controls (ec_ut e1) = Ok (tl (ec_ut e) ++ [zero3])).
  { rewrite E1. cbn [set_domain set_pose ec_ut]. destruct (ec_ut e) as [|a [|b l]]; unfold lenZ in LU; cbn [length] in LU; [lia|lia|reflexivity]. }
  set (ws := tl (ec_ut e) ++ [zero3]) in *.
  assert (LW : lenZ ws = ec_steps e).
  { unfold ws, lenZ. rewrite app_length. destruct (ec_ut e); unfold lenZ in LU; cbn [length tl] in *; lia. }
  assert (SO : exists tr, rk4_solve (ec_dt e) (rb_f (pl_robot (ec_model e))) x ws (ec_horizon e) = Ok tr).
  { assert (O : exists tr, rk4_solve (ec_dt e) (rb_f omni) x ws (ec_horizon e) = Ok tr).
    { pose proof (proj1 (c46_defined (ec_dt e) x ws (ec_horizon e) _ NS) ltac:(lia)) as O. destruct (rk4_solve _ _ _ _ _); try discriminate. eauto. }
    destruct M as [M|(M & Z1 & Z2)]; rewrite M; [exact O|]. cbn [cart_plant pl_robot]. rewrite cart_solves; [exact O|].
    apply Forall_app. split; [|constructor; [reflexivity|constructor]].
    pose proof (columns_straight e Rch Lm M Z1 Z2) as F. destruct (ec_ut e); [constructor|]. inversion F; assumption. }
  destruct SO as (tr & SO).
  assert (LT : lenZ tr = ec_steps e).
  { unfold rk4_solve in SO. rewrite NS in SO. cbn [bind] in SO. apply rk4_loop_len in SO. unfold lenZ. lia. }
  assert (NT : tr <> []) by (intros ->; cbn in LT; lia).
  destruct (sample_total e draws tr I BS BB NT Dr) as (total & SM).
  destruct (sample_split _ _ _ _ SM) as (cs & MC & _). cbn [m_cols] in MC.
  assert (LA : lenZ (map (shifted e1) (m_cols total)) = (lenZ cs + ec_steps e)%Z).
  { unfold lenZ in *. rewrite map_length, MC, app_length, map_length. lia. }
  pose proof (config_kept _ _ _ C1) as (KM & KD & KH & _ & _ & KS & _ & KR & _).
  cbn [set_pose ec_model ec_dt ec_horizon ec_steps ec_rhoT] in KM, KD, KH, KS, KR.
  assert (KB : ec_buffer e1 = ec_buffer e) by (rewrite E1; reflexivity).
  unfold ec_control. rewrite C1. cbn [bind]. rewrite Sh. cbn [bind]. rewrite KM, KD, KH, KS, KR, KB, SO. cbn [bind]. rewrite SM. cbn [bind].
  change (map (fun c : list R => _) (m_cols total)) with (map (shifted e1) (m_cols total)).
  set (all := map (shifted e1) (m_cols total)) in *. clearbody all.
  destruct (Z.eqb_spec (ec_steps e) 0); [lia|]. destruct (Z.ltb_spec (lenZ all) (ec_steps e)) as [LL|_]; [unfold lenZ in *; lia|]. cbn [orb].
  pose proof (skip_len all (ec_steps e) ltac:(unfold lenZ in *; lia)) as LX.
  set (xt := skipn _ all) in *. clearbody xt. cbn zeta.
  unfold gradErgodicMetric. split; intros Ph; [rewrite Ph; reflexivity|]. destruct (ec_phik e1) as [phik|]; [|congruence]. cbn [bind].
  set (edx := map _ xt). assert (LE : length edx = length xt) by apply map_length. clearbody edx.
  pose proof (proj1 (c47_defined (ec_dt e) rhodot (rb_fdx (pl_robot (ec_model e))) (ec_rhoT e) xt ws edx (gradBarrier e1 xt) (ec_horizon e) _ NS)) as CO.
  assert (LB : length (gradBarrier e1 xt) = length xt) by apply map_length.
  specialize (CO ltac:(unfold lenZ in *; lia)). destruct (co_solve _ _ _ _ _ _ _ _ _) as [rhot| | |] eqn:SV; try discriminate. cbn [bind].
  assert (LR : length rhot = length xt).
  { unfold co_solve in SV. rewrite NS in SV. cbn [bind] in SV. apply co_loop_len in SV. cbn [length] in SV. lia. }
  rewrite update_defined.
  2:{ destruct Lm as (M0 & M1 & M2). unfold clamps_defined, clampable. rewrite E1. cbn [set_domain set_pose ec_umin ec_umax nlt RNum].
      rewrite (proj2 (Rltb_false _ _) M0), (proj2 (Rltb_false _ _) M1), (proj2 (Rltb_false _ _) M2). reflexivity. }
  cbn [bind]. destruct (col_at_total (new_controls e1 xt rhot) 0) as (u & U); [rewrite update_len, LR, Nat.min_id; lia|].
  change (Z.of_nat 0) with 0%Z in U. rewrite U. cbn [bind]. eauto.
Qed.

Lemma control_defined (e : ec R) g x draws : reachable e -> limits e -> node_model e -> (2 <= ec_steps e)%Z ->
  0 < ec_resolution e -> g_xmin g <= g_xmax g -> g_ymin g <= g_ymax g ->
  1 / 1000000000000 <= g_xmax g - g_xmin g \/ 1 / 1000000000000 <= g_ymax g - g_ymin g ->
  ((g_xmax g - g_xmin g) / ec_resolution e + 3 / 2) * ((g_ymax g - g_ymin g) / ec_resolution e + 3 / 2) < 4294967296 ->
  (b_size (ec_buffer e) < 2 ^ 31)%Z -> (0 <= b_batch (ec_buffer e))%Z -> drawable (ec_buffer e) draws ->
  exists u e', ec_control e g x draws = Ok (u, e').
Proof.
  intros Rch Lm M St Hr Hx Hy NZ Sz BS BB Dr.
  destruct (control_total e g x draws Rch Lm M St Hr Hx Hy Sz BS BB Dr) as (e1 & C1 & _ & H). apply H.
  destruct (config_total (set_pose e x) g Hr ltac:(lra) ltac:(lra) Sz) as (e2 & C2 & P). rewrite C1 in C2. injection C2 as <-. apply P.
  cbn [set_pose ec_phik ec_basis]. destruct (ec_phik e) as [p|] eqn:Ph; [left; discriminate|right].
  destruct (fresh_domain e Rch Ph) as (-> & ->). rewrite !Rminus_0_r. destruct NZ; [left|right]; rewrite Rabs_pos_eq; lra.
Qed.
Lemma control_uninit (e : ec R) g x draws : constructed e -> limits e -> node_model e -> (2 <= ec_steps e)%Z ->
  0 < ec_resolution e -> 0 <= g_xmax g - g_xmin g < 1 / 1000000000000 -> 0 <= g_ymax g - g_ymin g < 1 / 1000000000000 ->
  ((g_xmax g - g_xmin g) / ec_resolution e + 3 / 2) * ((g_ymax g - g_ymin g) / ec_resolution e + 3 / 2) < 4294967296 ->
  (b_size (ec_buffer e) < 2 ^ 31)%Z -> (0 <= b_batch (ec_buffer e))%Z -> ec_control e g x draws = UB UUninit.
Proof.
  intros C Lm M St Hr Hx Hy Sz BS BB.
  assert (Rch : reachable e) by (exists e; split; [exact C|constructor]).
  assert (F : ec_phik e = None /\ b_mem (ec_buffer e) = []).
  { destruct C as (m & dt & h & r & w & nb & size & batch & Ri & umin & umax & (H1 & H2 & H3) & C).
    destruct (ctor_inv _ _ _ _ _ _ _ _ _ _ _ _ H1 H2 C) as (_ & E & _). rewrite E. split; reflexivity. }
  destruct F as (F & BE). destruct (control_total e g x draws Rch Lm M St Hr ltac:(lra) ltac:(lra) Sz BS BB) as (e1 & C1 & H & _).
  { left. rewrite BE. exact BB. }
  apply H. destruct (fresh_domain e Rch F) as (X & Y).
  destruct (config_unchanged (set_pose e x) g) as (e2 & C2 & P & _); cbn [set_pose ec_basis]; rewrite ?X, ?Y, ?Rminus_0_r, ?Rabs_pos_eq by lra; try lra.
  rewrite C1 in C2. injection C2 as <-. rewrite P. exact F.
Qed.

(** ** C72 *)
Lemma fdx_jacobian (e : ec R) x u : ec_model e = omni_plant \/ (ec_model e = cart_plant /\ v1 u = 0) ->
  nilp (rb_fdx (pl_robot (ec_model e)) x u) /\ jacobian (fun y => body (v2 y) u) (rb_fdx (pl_robot (ec_model e)) x u) x.
Proof.
  intros M. assert (O : jacobian (fun y => body (v2 y) u) (omni_fdx x u) x) by exact (omni_dx x u).
  destruct M as [M|(M & V)].
  - rewrite M. split; [apply nilp_omni|exact O].
  - rewrite M. split; [apply nilp_simple|]. cbn [cart_plant pl_robot rb_fdx simple_cart].
    replace (simple_fdx x u) with (omni_fdx x u); [exact O|]. unfold omni_fdx, simple_fdx. rrn. rewrite V. f_equal; apply V3_eq; ring.
Qed.
Lemma combine_nth_error {A B} (l : list A) (l' : list B) : forall i a b, nth_error l i = Some a -> nth_error l' i = Some b ->
  nth_error (combine l l') i = Some (a, b).
Proof.
  revert l'. induction l as [|x l IH]; intros [|y l'] [|i] a b H H'; cbn in *; try discriminate; [congruence|]. apply IH; assumption.
Qed.
Lemma to_of (c : list R) : lenZ c = 3%Z -> to_col (of_col c) = c.
Proof. destruct c as [|a [|b [|d [|]]]]; unfold lenZ; cbn [length]; intros H; try lia. reflexivity. Qed.
Lemma control_system (e : ec R) g x draws u e' r : reachable e -> node_model e -> tuned e r -> ec_control e g x draws = Ok (u, e') ->
  exists past traj rho phik,
  let ws := tl (ec_ut e) ++ [V3 0 0 0] in
  let pts := map at2 (map (framed g) (past ++ traj)) in
  let metric' := metric (bs_lx (ec_basis e')) (bs_ly (ec_basis e')) (bs_lam (ec_basis e')) (bs_k (ec_basis e')) phik in
  rk4_solve (ec_dt e) (rb_f (pl_robot (ec_model e))) x ws (ec_horizon e) = Ok traj /\
  recalls (ec_buffer e) draws past /\
  ec_phik e' = Some phik /\ length rho = length ws /\ nth_error (ec_ut e') 0 = Some u /\
  forall i y, nth_error (map (framed g) traj) i = Some y -> exists d b w m r0 r1 ui,
    (* state gradients *)
    v2 d = 0 /\
    is_derive (fun s => ec_weight e * (INR (length pts) / 2 * metric' (put pts (length past + i) (s, v1 y)))) (v0 y) (v0 d) /\
    is_derive (fun s => ec_weight e * (INR (length pts) / 2 * metric' (put pts (length past + i) (v0 y, s)))) (v1 y) (v1 d) /\
    v2 b = 0 /\ is_derive (barrier (bs_lx (ec_basis e'))) (v0 y) (v0 b) /\ is_derive (barrier (bs_ly (ec_basis e'))) (v1 y) (v1 b) /\
    (* co-state *)
    nth_error ws i = Some w /\ jacobian (fun z => body (v2 z) w) m y /\
    nth_error rho i = Some r0 /\ nth_error (rho ++ [V3 0 0 0]) (S i) = Some r1 /\
    (forall gam, costate_motion d b m r1 gam -> r0 = gam (- ec_dt e)) /\ (exists gam, costate_motion d b m r1 gam) /\
    (* control *)
    nth_error (ec_ut e') i = Some ui /\ unique_minimiser (in_box (ec_umin e) (ec_umax e)) (hamiltonian r y r0) ui.
Proof.
  intros Rch M Tu C. pose proof (reachable_inv _ Rch) as I.
  assert (Lm : limits e) by (destruct Tu as (ri & _ & (H0 & _) & (H1 & _) & (H2 & _)); repeat split; assumption).
  destruct (control_dec _ _ _ _ _ _ C) as (e1 & tr & total & edx & rhot & D). cbn zeta in D.
  destruct D as (C1 & L2 & SO & SM & N0 & LA & G & O & -> & A & _). cbn [set_ut ec_phik ec_basis ec_ut].
  pose proof (config_kept _ _ _ C1) as (KM & KD & KH & _ & KW & KS & KRi & KR & KU1 & KU2 & _).
  cbn [set_pose ec_model ec_dt ec_horizon ec_steps ec_rhoT ec_weight ec_Rinv ec_umin ec_umax] in KM, KD, KH, KS, KR, KW, KRi, KU1, KU2.
  destruct (config_same _ _ _ C1) as (ph & bs & E1 & L & K).
  assert (KB : ec_buffer e1 = ec_buffer e) by (rewrite E1; reflexivity).
  assert (KP : ec_map_pos e1 = (g_xmin g, g_ymin g)) by (rewrite E1; reflexivity).
  change (@zero3 R RNum) with (V3 0 0 0) in *.
  set (ws := tl (ec_ut e) ++ [V3 0 0 0]) in *.
  rewrite KM, KD, KH in SO. rewrite KB in SM. rewrite KM, KD, KH, KR, (i_rhoT _ I) in O. rewrite KS in *.
  pose proof (i_steps _ I) as NS.
  assert (LT : length tr = Z.to_nat (ec_steps e)).
  { unfold rk4_solve in SO. rewrite NS in SO. cbn [bind] in SO. exact (rk4_loop_len _ _ _ _ _ _ SO). }
  destruct (sample_split _ _ _ _ SM) as (cs & MC & FC & KC). cbn [m_cols m_rows] in MC, FC.
  set (past := map of_col cs).
  assert (LW : length ws = Z.to_nat (ec_steps e)).
  { pose proof (i_len _ I) as LU. unfold ws, lenZ in *. rewrite app_length. destruct (ec_ut e); cbn [length tl] in *; lia. }
  assert (AE : map (shifted e1) (m_cols total) = map (framed g) (past ++ tr)).
  { rewrite MC, !map_app, !map_map. f_equal.
    - unfold past. rewrite map_map. apply map_ext. intros c. unfold shifted, framed. rewrite KP. reflexivity.
    - apply map_ext. intros [a b c]. unfold shifted, framed. rewrite KP. reflexivity. }
  rewrite AE in *.
  assert (XE : skipn (Z.to_nat (lenZ (map (framed g) (past ++ tr)) - ec_steps e)) (map (framed g) (past ++ tr)) = map (framed g) tr).
  { pose proof (steps_range _ _ _ NS). unfold lenZ. rewrite map_length, app_length. rewrite map_app.
    replace (Z.to_nat (Z.of_nat (length past + length tr) - ec_steps e)) with (length (map (framed g) past)) by (rewrite map_length; lia).
    rewrite skipn_app, skipn_all, Nat.sub_diag. reflexivity. }
  rewrite XE in *. set (xt := map (framed g) tr) in *.
  unfold gradErgodicMetric in G. destruct (ec_phik e1) as [phik|] eqn:Ph; [|discriminate].
  destruct (c47_recurrence _ _ _ _ _ _ _ _ _ _ _ NS O) as (LR & CO).
  exists past, tr, rhot, phik. cbn zeta. split; [exact SO|]. split.
  { destruct KC as (ks & K1 & K2 & K3). exists ks. split; [exact K1|]. split; [exact K2|]. unfold past. clear - FC K3. induction K3 as [|k c ks cs Hk K3 IH]; [constructor|].
    inversion FC as [|? ? (_ & _ & Hl) FC']; subst. cbn [map]. constructor; [rewrite to_of by exact Hl; exact Hk|exact (IH FC')]. }
  split; [reflexivity|]. split; [unfold lenZ in LR; lia|]. split; [apply (col_at_ok _ 0) in A; exact A|].
  assert (PE : map at2 (map (framed g) (past ++ tr)) = map at2 (map (framed g) past) ++ map (fun x => (v0 x, v1 x)) xt).
  { unfold xt. rewrite !map_app. reflexivity. }
  intros i y Y. change (nth_error xt i = Some y) in Y.
  assert (LX : length xt = length rhot) by (unfold xt; rewrite map_length; unfold lenZ in LR; lia).
  assert (Hi : (i < length rhot)%nat) by (rewrite <- LX; apply nth_error_Some; rewrite Y; discriminate).
  destruct (CO i Hi) as (d & b & y' & w & r1 & D1 & D2 & D3 & D4 & D5 & D6). rewrite Y in D3. injection D3 as <-.
  assert (G' : gradErgodicMetric e1 (trajCoeff (ec_basis e1) (map at2 (map (framed g) past) ++ map (fun x => (v0 x, v1 x)) xt)) xt = Ok edx).
  { unfold gradErgodicMetric. rewrite Ph. rewrite <- PE. exact G. }
  destruct (c59_gradient e1 phik (map at2 (map (framed g) past)) xt edx i y Ph G' Y) as (_ & d' & E1' & V & Dx & Dy).
  rewrite D1 in E1'. injection E1' as <-. rewrite <- PE, !map_length, KW in Dx, Dy.
  destruct (c60_gradient e1 xt) as (_ & B). destruct (B i y Y) as (b' & B1 & B2 & Bx & By). rewrite D2 in B1. injection B1 as <-.
  assert (VW : ec_model e = omni_plant \/ (ec_model e = cart_plant /\ v1 w = 0)).
  { destruct M as [M|(Mc & Z1 & Z2)]; [left; exact M|right; split; [exact Mc|]].
    pose proof (columns_straight e Rch Lm Mc Z1 Z2) as F. unfold ws in D4. apply nth_error_In in D4. apply in_app_or in D4.
    destruct D4 as [D4|[<-|[]]]; [|reflexivity]. rewrite Forall_forall in F. apply F. destruct (ec_ut e); [destruct D4|right; exact D4]. }
  destruct (fdx_jacobian e y w VW) as (Ni & Ja).
  exists d, b, w, (rb_fdx (pl_robot (ec_model e)) y w), (co_step (ec_dt e) rhodot r1 d b (rb_fdx (pl_robot (ec_model e)) y w)), r1.
  exists (new_control e1 y (co_step (ec_dt e) rhodot r1 d b (rb_fdx (pl_robot (ec_model e)) y w))).
  split; [exact V|]. rewrite !map_length. split; [exact Dx|]. split; [exact Dy|]. split; [exact B2|]. split; [exact Bx|]. split; [exact By|].
  split; [exact D4|]. split; [exact Ja|]. split; [exact D6|]. split; [exact D5|]. split; [intros gam Hg; apply c47_step; assumption|].
  split; [apply c47_exists; exact Ni|]. split.
  - unfold new_controls. rewrite (map_nth_error (fun p => new_control e1 (fst p) (snd p)) i (combine xt rhot) (d := (y, co_step (ec_dt e) rhodot r1 d b (rb_fdx (pl_robot (ec_model e)) y w)))); [reflexivity|].
    apply combine_nth_error; assumption.
  - rewrite <- KU1, <- KU2. assert (Tu1 : tuned e1 r) by (unfold tuned in *; rewrite KRi, KU1, KU2; exact Tu).
    destruct M as [M|(M & Z1 & Z2)]; [apply omni_min|apply cart_min]; try assumption; congruence.
Qed.
(** The controller above, on the unit square. *)
Lemma unit_reachable t : reachable (setTarget (unit_ec []) t).
Proof. exists (unit_ec []). split; [apply unit_constructed|]. eapply history_snoc; [constructor|constructor]. Qed.
Lemma unit_limits t : limits (unit_ec t).
Proof. unfold limits. cbn. lra. Qed.
Lemma unit_tuned t : tuned (unit_ec t) (V3 1 1 1).
Proof. exists (V3 1 1 1). split; [reflexivity|]. unfold weighted. cbn. repeat split; try lra; left; split; lra. Qed.
Lemma unit_runs t x : exists u e', ec_control (setTarget (unit_ec []) t) (square 0) x [] = Ok (u, e').
Proof.
  apply control_defined; try (cbn; lra); try (cbn; lia).
  - apply unit_reachable.
  - apply unit_limits.
  - left. reflexivity.
  - left. cbn. lia.
Qed.
Lemma columns_steps {T} {NT : Num T} (e : ec T) : reachable e -> num_steps (ec_dt e) (ec_horizon e) = Ok (lenZ (ec_ut e)).
Proof. intros H. apply reachable_inv in H. rewrite (i_len _ H). apply (i_steps _ H). Qed.
Lemma warm_start {T} {NT : Num T} (e e' : ec T) g x draws u : ec_control e g x draws = Ok (u, e') ->
  exists traj, rk4_solve (ec_dt e) (rb_f (pl_robot (ec_model e))) x (tl (ec_ut e) ++ [zero3]) (ec_horizon e) = Ok traj.
Proof.
  intros C. destruct (control_dec _ _ _ _ _ _ C) as (e1 & tr & to & ed & rh & D). cbn zeta in D. destruct D as (C1 & _ & S & _).
  pose proof (config_kept _ _ _ C1) as (KM & KD & KH & _). rewrite KM, KD, KH in S. exists tr. exact S.
Qed.
Lemma path_defined {T} {NT : Num T} (e : ec T) : reachable e -> is_ok (ec_path e) = is_ok (optTraj e).
Proof.
  intros H. apply reachable_inv in H. pose proof (path_fails e) as F. destruct (optTraj e) as [tr| | |] eqn:O; [rewrite (path_ok e tr H O); reflexivity| | |]; apply F; reflexivity.
Qed.
Lemma unit_path : exists ps, ec_path (unit_ec []) = Ok ps.
Proof.
  assert (R : reachable (unit_ec [])) by (exists (unit_ec []); split; [apply unit_constructed|constructor]).
  pose proof (path_defined _ R) as D. destruct (ec_path (unit_ec [])); [eauto| | |];
  unfold optTraj in D; cbn [unit_ec ec_dt ec_model omni_plant pl_robot ec_pose ec_ut ec_horizon] in D;
  rewrite (proj1 (c46_defined _ _ _ _ _ steps_example)) in D by (cbn; lia); discriminate.
Qed.
Lemma c58_recomputed (e e' : ec R) g ps : 0 < ec_resolution e -> g_xmin g <= g_xmax g -> g_ymin g <= g_ymax g ->
  ((g_xmax g - g_xmin g) / ec_resolution e + 3 / 2) * ((g_ymax g - g_ymin g) / ec_resolution e + 3 / 2) < 4294967296 ->
  describes ps (ec_target e) ->
  1 / 1000000000000 <= Rabs (g_xmax g - g_xmin g - bs_lx (ec_basis e)) \/ 1 / 1000000000000 <= Rabs (g_ymax g - g_ymin g - bs_ly (ec_basis e)) ->
  configTarget e g = Ok e' -> tracks e' ps g.
Proof. intros H1 H2 H3 H4 H5 H6 H7. apply (config_recomputed e g); try assumption; lra. Qed.
Lemma c61_minimises (e : ec R) r xt rhot i x rho : tuned e r -> node_model e ->
  nth_error xt i = Some x -> nth_error rhot i = Some rho ->
  exists us u, updateControl e xt rhot = Ok us /\ nth_error us i = Some u /\
    unique_minimiser (in_box (ec_umin e) (ec_umax e)) (hamiltonian r x rho) u.
Proof.
  intros Tu M X Rh. exists (new_controls e xt rhot), (new_control e x rho).
  split. { apply update_defined. destruct Tu as (ri & _ & (H0 & _) & (H1 & _) & (H2 & _)). unfold clamps_defined, clampable. cbn [nlt RNum].
    rewrite (proj2 (Rltb_false _ _) H0), (proj2 (Rltb_false _ _) H1), (proj2 (Rltb_false _ _) H2). reflexivity. }
  split.
  - unfold new_controls. exact (map_nth_error (fun p => new_control e (fst p) (snd p)) i _ (combine_nth_error _ _ _ _ _ X Rh)).
  - destruct M as [M|(M & Z1 & Z2)]; [apply omni_min|apply cart_min]; assumption.
Qed.
Lemma c62_ctor (m : plant R) dt h r w nb size batch Ri umin umax : dt <> 0 -> Rabs h < 4294967296 * Rabs dt ->
  (0 <= nb)%Z -> (nb * nb < 2 ^ 31)%Z ->
  (Rabs dt <= Rabs h < 2 * Rabs dt -> ec_ctor m dt h r w nb size batch Ri umin umax = Throw EInvalidArgument) /\
  (~ (Rabs dt <= Rabs h < 2 * Rabs dt) -> exists e, ec_ctor m dt h r w nb size batch Ri umin umax = Ok e).
Proof.
  intros D H N1 N2. destruct (c27_defined dt h D H) as (n & N). destruct (steps_one dt h n D N) as (O & _).
  destruct (ctor_steps m dt h r w nb size batch Ri umin umax n N N1 N2) as (A & B). split; intros Q.
  - apply A, O, Q.
  - destruct B as (e & E & _); [rewrite O; exact Q|eauto].
Qed.
Lemma c62_zero (e : ec R) g x draws : reachable e -> ec_dt e <> 0 -> Rabs (ec_horizon e) < Rabs (ec_dt e) ->
  is_ok (ec_control e g x draws) = false /\ (is_ok (configTarget (set_pose e x) g) = true -> ec_control e g x draws = Throw EArma).
Proof.
  intros R D H. apply reachable_inv in R. apply zero_steps; [exact R|]. apply (steps_one _ _ _ D (i_steps _ R)). exact H.
Qed.
