(** Lemmas behind the ergodic controller properties over the reals. *)
From Coq Require Import Reals Lra Lia ZArith List ZifyBool Psatz.
From Flocq Require Import Core.Raux.
From Coquelicot Require Import Coquelicot.
From Verif Require Import Outcome Num GridModel GridProofs NumericsModel SpecMotion NumericsProofs MotionProofs
  BufferModel BufferProofs BasisModel SpecBasis BasisProofs RobotModel SpecRobot RobotProofs ErgodicModel SpecErgodic ErgodicProofs.
Import ListNotations.
Ltac Zify.zify_post_hook ::= idtac.
Local Open Scope R_scope.

(** ** C55 *)
Lemma clamped_R (lo hi c : R) : clamped lo hi c <-> lo <= c <= hi.
Proof. unfold clamped. cbn [nlt RNum]. rewrite !Rltb_false. tauto. Qed.
Lemma clamped3_R lo hi u : clamped3 lo hi u <-> in_box lo hi u.
Proof. unfold clamped3, in_box. rewrite !clamped_R. tauto. Qed.
Definition box (lo hi : vec3 R) : Prop := v0 lo <= v0 hi /\ v1 lo <= v1 hi /\ v2 lo <= v2 hi.
Lemma proper_R lo hi : v0 lo <= v0 hi -> v1 lo <= v1 hi -> v2 lo <= v2 hi -> proper lo hi.
Proof. intros. unfold proper. cbn [nlt RNum]. rewrite !Rltb_false. lra. Qed.
Lemma ctor_zero {T} {NT : Num T} (e : ec T) : constructed e -> Forall (fun u => u = zero3) (ec_ut e).
Proof.
  intros (m & dt & h & r & w & nb & size & batch & Ri & umin & umax & (H1 & H2 & H3) & C).
  destruct (ctor_inv _ _ _ _ _ _ _ _ _ _ _ _ H1 H2 C) as (_ & -> & _). cbn [ec_ut ec_steps].
  apply Forall_forall. intros u. apply repeat_spec.
Qed.
Lemma c55_history (e0 e : ec R) : constructed e0 -> v0 (ec_umin e0) <= v0 (ec_umax e0) -> v1 (ec_umin e0) <= v1 (ec_umax e0) ->
  v2 (ec_umin e0) <= v2 (ec_umax e0) -> history e0 e ->
  (Forall (fun u => u = V3 0 0 0) (ec_ut e) \/ Forall (in_box (ec_umin e0) (ec_umax e0)) (ec_ut e)) /\
  forall g x draws u e', ec_control e g x draws = Ok (u, e') ->
    in_box (ec_umin e0) (ec_umax e0) u /\ Forall (in_box (ec_umin e0) (ec_umax e0)) (ec_ut e').
Proof.
  intros C H0 H1 H2 H. pose proof (proper_R _ _ H0 H1 H2) as P. split.
  - destruct (history_clamped _ _ (ctor_zero _ C) P H) as [G|G]; [left; exact G|right].
    eapply Forall_impl; [|exact G]. intros u. apply clamped3_R.
  - intros g x dr u e' D. pose proof (history_kept _ _ H) as (_ & _ & _ & _ & _ & _ & _ & _ & Um & UM & _).
    rewrite <- Um, <- UM in P |- *. destruct (control_clamped _ _ _ _ _ _ P D) as [F G]. split; [apply clamped3_R; exact G|].
    eapply Forall_impl; [|exact F]. intros v. apply clamped3_R.
Qed.

(** ** C56 *)
Lemma almost_00 : almost_equal (n0 : R) n0 = true.
Proof. apply almost_equal_R. unfold n0. cbn [nofZ RNum]. rewrite Rminus_eq_0, Rabs_R0. lra. Qed.
Lemma c56_never (e0 e : ec R) : constructed e0 -> ec_model e0 = cart_plant ->
  v0 (ec_umin e0) <= v0 (ec_umax e0) -> v1 (ec_umin e0) = 0 -> v1 (ec_umax e0) = 0 -> v2 (ec_umin e0) <= v2 (ec_umax e0) ->
  history e0 e ->
  (forall g x draws, ec_control e g x draws <> Throw EInvalidArgument) /\ optTraj e <> Throw EInvalidArgument /\ ec_path e <> Throw EInvalidArgument.
Proof.
  intros C M H0 H1 H1' H2 H.
  assert (P : proper (ec_umin e0) (ec_umax e0)) by (apply proper_R; lra).
  assert (G : ~ ((exists g x draws, ec_control e g x draws = Throw EInvalidArgument) \/ optTraj e = Throw EInvalidArgument \/ ec_path e = Throw EInvalidArgument)).
  { intros Th. destruct (cart_throw _ _ (ctor_zero _ C) P M almost_00 H Th) as (u & _ & (_ & B & _) & A).
    apply clamped_R in B. rewrite H1, H1' in B. assert (E : v1 u = 0) by lra. rewrite E in A. pose proof almost_00. unfold n0 in *. cbn [nofZ RNum] in *. congruence. }
  split; [|split]; intros; intros X; apply G; eauto 6.
Qed.

(** ** C59 *)
Lemma row_sum_length {T} {NT : Num T} n (cols : list (list T)) : Forall (fun c => length c = n) cols -> length (row_sum n cols) = n.
Proof.
  unfold row_sum. assert (G : forall cols acc, length acc = n -> Forall (fun c : list T => length c = n) cols ->
    length (fold_left (fun acc c => map (fun p => (fst p + snd p)%num) (combine acc c)) cols acc) = n).
  { induction cols0 as [|c l IH]; intros acc A H; [exact A|]. inversion H; subst. cbn [fold_left]. apply IH; [|assumption].
    rewrite map_length, combine_length. lia. }
  apply G. apply repeat_length.
Qed.
Lemma trajCoeff_map (bs : basis R) pts : trajCoeff bs pts = map (fun k => coeff (bs_lx bs) (bs_ly bs) k pts) (bs_k bs).
Proof.
  assert (G : forall i, nth_error (trajCoeff bs pts) i = nth_error (map (fun k => coeff (bs_lx bs) (bs_ly bs) k pts) (bs_k bs)) i).
  { intros i. destruct (nth_error (bs_k bs) i) as [k|] eqn:K.
    - rewrite (c38_traj bs pts i k K), (map_nth_error _ _ _ K). reflexivity.
    - transitivity (@None R); [|symmetry; apply nth_error_None; rewrite map_length; apply nth_error_None; exact K].
      apply nth_error_None. unfold trajCoeff. rewrite map_length. apply nth_error_None in K.
      rewrite row_sum_length; [exact K|]. apply Forall_forall. intros c Hc. apply in_map_iff in Hc. destruct Hc as (p & <- & _).
      unfold fourierBasis. rewrite map_length. reflexivity. }
  revert G. generalize (trajCoeff bs pts) as l1. generalize (map (fun k => coeff (bs_lx bs) (bs_ly bs) k pts) (bs_k bs)) as l2.
  intros l2 l1. revert l2. induction l1 as [|a l1 IH]; intros [|b l2] G; [reflexivity|specialize (G 0%nat); discriminate|specialize (G 0%nat); discriminate|].
  pose proof (G 0%nat) as G0. injection G0 as ->. f_equal. apply IH. intros i. exact (G (S i)).
Qed.
Lemma put_length {A} (l : list A) : forall i a, length (put l i a) = length l.
Proof. induction l as [|b l IH]; intros [|i] a; cbn [put length]; auto. Qed.
Lemma rsum_put (f : R * R -> R) l : forall i p q, nth_error l i = Some p -> rsum (map f (put l i q)) = rsum (map f l) - f p + f q.
Proof.
  induction l as [|b l IH]; intros [|i] p q H; try discriminate; cbn [put map]; rewrite !rsum_cons.
  - injection H as ->. ring.
  - rewrite (IH i p q H). ring.
Qed.
Lemma coeff_put lx ly k pts i p q : nth_error pts i = Some p ->
  coeff lx ly k (put pts i q) = coeff lx ly k pts + (mode lx ly k (fst q) (snd q) - mode lx ly k (fst p) (snd p)) / INR (length pts).
Proof.
  intros H. unfold coeff, mean. rewrite !map_length, put_length.
  rewrite (rsum_put (fun p => mode lx ly k (fst p) (snd p)) pts i p q H). unfold Rdiv. ring.
Qed.
Lemma derive_rsum {A} (F : A -> R -> R) (D : A -> R) x (l : list A) : (forall a, In a l -> is_derive (F a) x (D a)) ->
  is_derive (fun s => rsum (map (fun a => F a s) l)) x (rsum (map D l)).
Proof.
  induction l as [|a l IH]; intros H.
  - apply (is_derive_const (0 : R) x).
  - cbn [map]. rewrite rsum_cons. apply (is_derive_ext (fun s => F a s + rsum (map (fun a => F a s) l))); [intros; reflexivity|].
    apply @is_derive_plus; [apply H; left; reflexivity|apply IH; intros b Hb; apply H; right; exact Hb].
Qed.
Lemma grad_mode (bs : basis R) x y k :
  is_derive (fun s => mode (bs_lx bs) (bs_ly bs) k s y) x (fst (basis_grad bs (x, y) k)) /\
  is_derive (fun s => mode (bs_lx bs) (bs_ly bs) k x s) y (snd (basis_grad bs (x, y) k)).
Proof.
  pose (b1 := mkBasis (bs_lx bs) (bs_ly bs) [] [k]).
  destruct (c37_gradient b1 x y 0 k eq_refl) as (gx & gy & E & D1 & D2).
  cbn [gradFourierBasis map nth_error b1 bs_k] in E. injection E as <- <-. cbn [nth fourierBasis map b1 bs_k] in D1, D2.
  split; [eapply is_derive_ext; [|exact D1]|eapply is_derive_ext; [|exact D2]]; intros t; cbv beta; apply (basis_fun_mode b1).
Qed.
(** The model's sum over combined lists, as a sum over (weight, (k, phi)). *)
Lemma sum_combined (g : Z * Z -> R) (c : Z * Z -> R) ks : forall lam phik,
  rsum (map (fun p => fst p * snd p) (combine (map g ks)
    (map (fun p => fst p * (fst (snd p) - snd (snd p))) (combine lam (combine (map c ks) phik))))) =
  rsum (map (fun p => g (fst (snd p)) * (fst p * (c (fst (snd p)) - snd (snd p)))) (combine lam (combine ks phik))).
Proof.
  induction ks as [|k ks IH]; intros lam phik.
  - cbn [map combine]. destruct lam; reflexivity.
  - destruct lam as [|w lam]; [reflexivity|]. destruct phik as [|f phik]; [reflexivity|].
    cbn [map combine fst snd]. rewrite !rsum_cons. rewrite <- IH. reflexivity.
Qed.
Lemma combine_map_l {A B C} (f : A -> B) (l : list A) : forall (l' : list C), combine (map f l) l' = map (fun p => (f (fst p), snd p)) (combine l l').
Proof. induction l as [|a l IH]; intros [|c l']; cbn; auto. f_equal. apply IH. Qed.
Definition slope (bs : basis R) (phik : list R) (pts : list (R * R)) (g : Z * Z -> R) : R :=
  rsum (map (fun p => g (fst (snd p)) * (fst p * (coeff (bs_lx bs) (bs_ly bs) (fst (snd p)) pts - snd (snd p)))) (combine (bs_lam bs) (combine (bs_k bs) phik))).
Lemma edx_slope (e : ec R) phik pts x :
  edx_col e (map (fun p => fst p * (fst (snd p) - snd (snd p))) (combine (bs_lam (ec_basis e)) (combine (trajCoeff (ec_basis e) pts) phik))) x =
  V3 (slope (ec_basis e) phik pts (fun k => fst (basis_grad (ec_basis e) (xy x) k)) * ec_weight e)
     (slope (ec_basis e) phik pts (fun k => snd (basis_grad (ec_basis e) (xy x) k)) * ec_weight e) 0.
Proof.
  unfold edx_col. cbn [nmul RNum]. rewrite !vsum_rsum, trajCoeff_map. unfold slope, gradFourierBasis.
  set (c := fun k => coeff (bs_lx (ec_basis e)) (bs_ly (ec_basis e)) k pts).
  assert (G : forall pr : R * R -> R,
    rsum (map (fun p => pr (fst p) * snd p) (combine (map (basis_grad (ec_basis e) (xy x)) (bs_k (ec_basis e)))
      (map (fun p => fst p * (fst (snd p) - snd (snd p))) (combine (bs_lam (ec_basis e)) (combine (map c (bs_k (ec_basis e))) phik))))) =
    rsum (map (fun p => pr (basis_grad (ec_basis e) (xy x) (fst (snd p))) * (fst p * (c (fst (snd p)) - snd (snd p)))) (combine (bs_lam (ec_basis e)) (combine (bs_k (ec_basis e)) phik)))).
  { intros pr. rewrite <- (sum_combined (fun k => pr (basis_grad (ec_basis e) (xy x) k)) c).
    rewrite (combine_map_l (basis_grad (ec_basis e) (xy x))), (combine_map_l (fun k => pr (basis_grad (ec_basis e) (xy x) k))), !map_map. reflexivity. }
  f_equal; f_equal; [exact (G fst)|exact (G snd)].
Qed.
Lemma metric_slope (bs : basis R) phik pts i p (q : R -> R * R) s0 (d : Z * Z -> R) : nth_error pts i = Some p -> q s0 = p ->
  (forall k, is_derive (fun s => mode (bs_lx bs) (bs_ly bs) k (fst (q s)) (snd (q s))) s0 (d k)) ->
  is_derive (fun s => INR (length pts) / 2 * metric (bs_lx bs) (bs_ly bs) (bs_lam bs) (bs_k bs) phik (put pts i (q s))) s0
    (slope bs phik pts d).
Proof.
  intros H Q D. set (N := INR (length pts)).
  assert (NP : 0 < N). { apply lt_0_INR. destruct pts; [destruct i; discriminate|cbn; lia]. }
  unfold metric, slope.
  apply (is_derive_ext (fun s => rsum (map (fun c : R * (Z * Z * R) => N / 2 * (fst c * (coeff (bs_lx bs) (bs_ly bs) (fst (snd c)) (put pts i (q s)) - snd (snd c)) ^ 2)) (combine (bs_lam bs) (combine (bs_k bs) phik))))).
  { intros s. rewrite (Rmult_comm (N / 2)), <- rsum_scale, map_map. f_equal. apply map_ext. intros c. ring. }
  apply (derive_rsum (fun (c : R * (Z * Z * R)) s => N / 2 * (fst c * (coeff (bs_lx bs) (bs_ly bs) (fst (snd c)) (put pts i (q s)) - snd (snd c)) ^ 2))).
  intros [w [k f]] _. cbn [fst snd].
  apply (is_derive_ext (fun s => N / 2 * (w * (coeff (bs_lx bs) (bs_ly bs) k pts + (mode (bs_lx bs) (bs_ly bs) k (fst (q s)) (snd (q s)) - mode (bs_lx bs) (bs_ly bs) k (fst p) (snd p)) / N - f) ^ 2))).
  { intros s. rewrite (coeff_put _ _ _ _ _ _ _ H). reflexivity. }
  specialize (D k). rewrite <- Q. set (M := fun s => mode (bs_lx bs) (bs_ly bs) k (fst (q s)) (snd (q s))) in *.
  change (mode (bs_lx bs) (bs_ly bs) k (fst (q s0)) (snd (q s0))) with (M s0).
  apply (is_derive_ext (fun s => N / 2 * (w * (coeff (bs_lx bs) (bs_ly bs) k pts + (M s - M s0) / N - f) ^ 2))); [reflexivity|].
  change (is_derive M s0 (d k)) in D. clearbody M. auto_derive; [exists (d k); exact D|]. replace (Derive (fun x : R => M x) s0) with (d k) by (symmetry; exact (is_derive_unique _ _ _ D)). replace (M s0 + - M s0) with 0 by ring. field. lra.
Qed.
Lemma c59_gradient (e : ec R) phik past xt edx i x : ec_phik e = Some phik ->
  let pts := past ++ map (fun x => (v0 x, v1 x)) xt in
  gradErgodicMetric e (trajCoeff (ec_basis e) pts) xt = Ok edx -> nth_error xt i = Some x ->
  length edx = length xt /\
  exists d, nth_error edx i = Some d /\ v2 d = 0 /\
    let E p := ec_weight e * (INR (length pts) / 2 * metric (bs_lx (ec_basis e)) (bs_ly (ec_basis e)) (bs_lam (ec_basis e)) (bs_k (ec_basis e)) phik
                 (put pts (length past + i) p)) in
    is_derive (fun s => E (s, v1 x)) (v0 x) (v0 d) /\ is_derive (fun s => E (v0 x, s)) (v1 x) (v1 d).
Proof.
  intros P pts G H. unfold gradErgodicMetric in G. rewrite P in G. injection G as <-. split; [apply map_length|].
  eexists. split; [apply map_nth_error; exact H|]. rewrite edx_slope. cbn [v0 v1 v2].
  assert (HP : nth_error pts (length past + i) = Some (xy x)).
  { unfold pts. rewrite nth_error_app2 by lia. replace (length past + i - length past)%nat with i by lia. apply (map_nth_error _ _ _ H). }
  split; [reflexivity|]. cbv zeta. split; rewrite Rmult_comm; apply (is_derive_scal _ _ (ec_weight e)).
  - apply (metric_slope _ _ _ _ (xy x) (fun s => (s, v1 x)) (v0 x)); [exact HP|reflexivity|]. intros k. exact (proj1 (grad_mode (ec_basis e) (v0 x) (v1 x) k)).
  - apply (metric_slope _ _ _ _ (xy x) (fun s => (v0 x, s)) (v1 x)); [exact HP|reflexivity|]. intros k. exact (proj2 (grad_mode (ec_basis e) (v0 x) (v1 x) k)).
Qed.

(** ** C60 *)
Lemma derive_quad (f : R -> R) x l C : 0 < C -> (forall y, Rabs (f y - f x - (y - x) * l) <= C * (y - x) ^ 2) -> is_derive f x l.
Proof.
  intros HC H. apply is_derive_Reals. intros eps He.
  assert (Hd : 0 < eps / C) by (apply Rdiv_lt_0_compat; assumption). exists (mkposreal _ Hd). intros h Hh Hlt. cbn [pos] in Hlt.
  specialize (H (x + h)). replace (x + h - x) with h in H by ring.
  replace ((f (x + h) - f x) / h - l) with ((f (x + h) - f x - h * l) / h) by (field; exact Hh).
  rewrite Rabs_div by exact Hh. assert (0 < Rabs h) by (apply Rabs_pos_lt; exact Hh).
  apply Rle_lt_trans with (C * Rabs h).
  - apply Rmult_le_reg_r with (Rabs h); [assumption|]. unfold Rdiv. rewrite Rmult_assoc, Rinv_l, Rmult_1_r by lra.
    replace (C * Rabs h * Rabs h) with (C * h ^ 2); [exact H|]. rewrite <- (pow2_abs h). ring.
  - apply Rmult_lt_reg_r with (/ C); [apply Rinv_0_lt_compat; exact HC|]. replace (C * Rabs h * / C) with (Rabs h) by (field; lra). exact Hlt.
Qed.
Lemma pos_sq u v : Rabs (Rmax 0 u ^ 2 - Rmax 0 v ^ 2 - (u - v) * (2 * Rmax 0 v)) <= 1 * (u - v) ^ 2.
Proof.
  destruct (Rle_or_lt 0 u), (Rle_or_lt 0 v);
    [rewrite !Rmax_right by lra|rewrite Rmax_right, Rmax_left by lra|rewrite Rmax_left, Rmax_right by lra|rewrite !Rmax_left by lra]; apply Rabs_le.
  - pose proof (pow2_ge_0 (u - v)). nra.
  - assert (0 <= u * - v) by (apply Rmult_le_pos; lra). nra.
  - assert (0 <= - u * v) by (apply Rmult_le_pos; lra). pose proof (pow2_ge_0 u). nra.
  - pose proof (pow2_ge_0 (u - v)). nra.
Qed.
Lemma derive_pos_sq a x : is_derive (fun x => Rmax 0 (x - a) ^ 2) x (2 * Rmax 0 (x - a)).
Proof.
  apply (derive_quad _ _ _ 1); [lra|]. intros y.
  replace (y - x) with ((y - a) - (x - a)) by ring. apply pos_sq.
Qed.
Lemma derive_neg_sq a x : is_derive (fun x => Rmax 0 (a - x) ^ 2) x (- (2 * Rmax 0 (a - x))).
Proof.
  apply (derive_quad _ _ _ 1); [lra|]. intros y.
  replace (y - x) with (- ((a - y) - (a - x))) by ring.
  replace (- (a - y - (a - x)) * - (2 * Rmax 0 (a - x))) with ((a - y - (a - x)) * (2 * Rmax 0 (a - x))) by ring.
  replace ((- (a - y - (a - x))) ^ 2) with ((a - y - (a - x)) ^ 2) by ring. apply pos_sq.
Qed.
Lemma bdx_R l x : bdx_at l x = 25 * (2 * Rmax 0 (x - (l - 1 / 20)) - 2 * Rmax 0 (1 / 20 - x)).
Proof.
  unfold bdx_at, barrier_eps, nbool, lit, n0, n1, n2. cbn [nadd nsub nmul ndiv nlt nofZ RNum].
  replace (5 / 100) with (1 / 20) by lra.
  assert (A : (if Rltb (l - 1 / 20) x then 1 else 0) * (x - (l - 1 / 20)) = Rmax 0 (x - (l - 1 / 20))).
  { destruct (Rltb (l - 1 / 20) x) eqn:E; [apply Rltb_true in E; rewrite Rmax_right; lra|apply Rltb_false in E; rewrite Rmax_left; lra]. }
  assert (B : (if Rltb x (1 / 20) then 1 else 0) * (x - 1 / 20) = - Rmax 0 (1 / 20 - x)).
  { destruct (Rltb x (1 / 20)) eqn:E; [apply Rltb_true in E; rewrite Rmax_right; lra|apply Rltb_false in E; rewrite Rmax_left; lra]. }
  rewrite !Rmult_assoc. rewrite A, B. ring.
Qed.
Lemma derive_barrier l x : is_derive (barrier l) x (bdx_at l x).
Proof.
  rewrite bdx_R. unfold barrier. apply (is_derive_scal (fun x => Rmax 0 (x - (l - 1 / 20)) ^ 2 + Rmax 0 (1 / 20 - x) ^ 2) x 25).
  apply @is_derive_plus; [apply derive_pos_sq|apply derive_neg_sq].
Qed.
Lemma c60_gradient (e : ec R) xt : length (gradBarrier e xt) = length xt /\ forall i x, nth_error xt i = Some x ->
  exists d, nth_error (gradBarrier e xt) i = Some d /\ v2 d = 0 /\
    is_derive (barrier (bs_lx (ec_basis e))) (v0 x) (v0 d) /\ is_derive (barrier (bs_ly (ec_basis e))) (v1 x) (v1 d).
Proof.
  split; [apply map_length|]. intros i x H. eexists. split; [apply (map_nth_error _ _ _ H)|]. cbn [v0 v1 v2].
  split; [reflexivity|]. split; apply derive_barrier.
Qed.
Lemma c60_sign (l x d : R) : is_derive (barrier l) x d ->
  (1 / 20 <= x <= l - 1 / 20 -> d = 0 /\ barrier l x = 0) /\
  (1 / 20 <= x -> l - 1 / 20 < x -> d = 50 * (x - (l - 1 / 20)) /\ 0 < d) /\
  (x < 1 / 20 -> x <= l - 1 / 20 -> d = - (50 * (1 / 20 - x)) /\ d < 0).
Proof.
  intros D. apply is_derive_unique in D. rewrite (is_derive_unique _ _ _ (derive_barrier l x)), bdx_R in D. subst d.
  split; [|split]; intros.
  - unfold barrier. rewrite !Rmax_left by lra. split; ring.
  - rewrite Rmax_right, Rmax_left by lra. lra.
  - rewrite Rmax_left, Rmax_right by lra. lra.
Qed.

(** ** C61 *)
Lemma clamp_min r b lo hi v : 0 < r -> lo <= hi -> lo <= v <= hi ->
  let u := fclamp (- (/ r * b)) lo hi in
  lo <= u <= hi /\ r * u ^ 2 / 2 + b * u <= r * v ^ 2 / 2 + b * v /\ (v <> u -> r * u ^ 2 / 2 + b * u < r * v ^ 2 / 2 + b * v).
Proof.
  intros Hr Hb Hv u. set (c := - (/ r * b)) in *. assert (EB : b = - (r * c)) by (unfold c; field; lra). rewrite EB.
  assert (D : forall u', (r * v ^ 2 / 2 + - (r * c) * v) - (r * u' ^ 2 / 2 + - (r * c) * u') = r * (v - u') * ((v + u') / 2 - c)) by (intros; field).
  assert (U : lo <= u <= hi /\ (u - c) * (v - u) >= 0).
  { unfold u, fclamp. cbn [nlt RNum]. destruct (Rltb c lo) eqn:E1.
    - apply Rltb_true in E1. split; [lra|]. nra.
    - apply Rltb_false in E1. destruct (Rltb hi c) eqn:E2.
      + apply Rltb_true in E2. split; [lra|]. nra.
      + apply Rltb_false in E2. split; [lra|]. nra. }
  destruct U as [U1 U2]. clearbody u.
  assert (F : r * (v - u) * ((v + u) / 2 - c) = r * ((u - c) * (v - u)) + r * (v - u) ^ 2 / 2) by field.
  pose proof (D u) as Du. rewrite F in Du. assert (0 <= r * ((u - c) * (v - u))) by (apply Rmult_le_pos; lra).
  assert (0 <= r * (v - u) ^ 2 / 2) by (pose proof (pow2_ge_0 (v - u)); nra).
  split; [exact U1|]. split; [lra|]. intros Hn. assert (0 < (v - u) ^ 2) by (apply pow2_gt_0; lra). assert (0 < r * (v - u) ^ 2 / 2) by nra. lra.
Qed.
(** One component: the weight is positive and inverted by Rinv, or the limits coincide. *)
Lemma comp_min r ri b lo hi v : weighted r ri lo hi -> lo <= v <= hi ->
  let u := fclamp (- (ri * b)) lo hi in
  lo <= u <= hi /\ r * u ^ 2 / 2 + b * u <= r * v ^ 2 / 2 + b * v /\ (v <> u -> r * u ^ 2 / 2 + b * u < r * v ^ 2 / 2 + b * v).
Proof.
  intros (H & [[Hr ->]|E]) Hv; [apply clamp_min; assumption|]. cbv zeta. set (u := fclamp _ _ _).
  assert (U : lo <= u <= hi). { apply clamped_R. apply clamp_clamped; cbn [nlt RNum]; apply Rltb_false; lra. }
  assert (v = u) by lra. subst v. split; [exact U|]. split; [lra|congruence].
Qed.
Lemma new_control_eq (e : ec R) a b c x rho w : ec_Rinv e = diag a b c ->
  mtvmul (pl_fdu (ec_model e) x) rho = w ->
  new_control e x rho = V3 (fclamp (- (a * v0 w)) (v0 (ec_umin e)) (v0 (ec_umax e))) (fclamp (- (b * v1 w)) (v1 (ec_umin e)) (v1 (ec_umax e)))
                           (fclamp (- (c * v2 w)) (v2 (ec_umin e)) (v2 (ec_umax e))).
Proof.
  intros R M. unfold new_control. rewrite R, M. unfold mvmul, vneg, vdot, diag. cbn [v0 v1 v2 r0 r1 r2]. rrn.
  f_equal; f_equal; f_equal; ring.
Qed.
Lemma three_min r ri lo hi w u0 : weighted (v0 r) (v0 ri) (v0 lo) (v0 hi) -> weighted (v1 r) (v1 ri) (v1 lo) (v1 hi) -> weighted (v2 r) (v2 ri) (v2 lo) (v2 hi) ->
  u0 = V3 (fclamp (- (v0 ri * v0 w)) (v0 lo) (v0 hi)) (fclamp (- (v1 ri * v1 w)) (v1 lo) (v1 hi)) (fclamp (- (v2 ri * v2 w)) (v2 lo) (v2 hi)) ->
  unique_minimiser (in_box lo hi) (fun u => (v0 r * v0 u ^ 2 + v1 r * v1 u ^ 2 + v2 r * v2 u ^ 2) / 2 + dot w u) u0.
Proof.
  intros H0 H1 H2 ->. unfold unique_minimiser, dot. cbn [v0 v1 v2].
  set (a := fclamp (- (v0 ri * v0 w)) _ _). set (b := fclamp (- (v1 ri * v1 w)) _ _). set (c := fclamp (- (v2 ri * v2 w)) _ _).
  assert (B : in_box lo hi (V3 a b c)).
  { unfold in_box. cbn [v0 v1 v2]. pose proof (proj1 H0). pose proof (proj1 H1). pose proof (proj1 H2).
    split; [|split]; [apply (comp_min _ _ (v0 w) _ _ (v0 lo) H0)|apply (comp_min _ _ (v1 w) _ _ (v1 lo) H1)|apply (comp_min _ _ (v2 w) _ _ (v2 lo) H2)]; lra. }
  split; [exact B|]. intros v (V0 & V1 & V2) NE.
  destruct (comp_min _ _ (v0 w) _ _ _ H0 V0) as (_ & L0 & S0). destruct (comp_min _ _ (v1 w) _ _ _ H1 V1) as (_ & L1 & S1).
  destruct (comp_min _ _ (v2 w) _ _ _ H2 V2) as (_ & L2 & S2). fold a in L0, S0. fold b in L1, S1. fold c in L2, S2. cbv zeta in *.
  destruct (Req_dec (v0 v) a) as [E0|E0]; [|specialize (S0 E0); lra].
  destruct (Req_dec (v1 v) b) as [E1|E1]; [|specialize (S1 E1); lra].
  destruct (Req_dec (v2 v) c) as [E2|E2]; [|specialize (S2 E2); lra].
  exfalso. apply NE. destruct v as [p q t]. cbn [v0 v1 v2] in *. subst. reflexivity.
Qed.
Lemma min_ext (P : vec3 R -> Prop) f g u : (forall v, P v -> f v = g v) -> unique_minimiser P f u -> unique_minimiser P g u.
Proof. intros E (H1 & H2). split; [exact H1|]. intros v Hv Hn. rewrite <- !E by assumption. apply H2; assumption. Qed.
Lemma omni_min (e : ec R) r x rho : tuned e r -> ec_model e = omni_plant ->
  unique_minimiser (in_box (ec_umin e) (ec_umax e)) (hamiltonian r x rho) (new_control e x rho).
Proof.
  intros (ri & Ri & H0 & H1 & H2) M. rewrite (new_control_eq e _ _ _ x rho _ Ri eq_refl).
  eapply min_ext; [|apply (three_min r ri _ _ _ _ H0 H1 H2 eq_refl)].
  intros v _. cbv beta. unfold hamiltonian. f_equal. rewrite M. unfold omni_plant, pl_fdu, omni_fdu, mtvmul, vdot, dot, body, col0, col1, col2.
  cbn [v0 v1 v2 r0 r1 r2]. rrn. ring.
Qed.
Lemma cart_min (e : ec R) r x rho : tuned e r -> ec_model e = cart_plant -> v1 (ec_umin e) = 0 -> v1 (ec_umax e) = 0 ->
  unique_minimiser (in_box (ec_umin e) (ec_umax e)) (hamiltonian r x rho) (new_control e x rho).
Proof.
  intros (ri & Ri & H0 & H1 & H2) M Z1 Z2. rewrite (new_control_eq e _ _ _ x rho _ Ri eq_refl).
  eapply min_ext; [|apply (three_min r ri _ _ _ _ H0 H1 H2 eq_refl)].
  intros v (_ & V1 & _). assert (Ev : v1 v = 0) by lra. cbv beta. unfold hamiltonian. f_equal. rewrite M.
  unfold cart_plant, pl_fdu, simple_fdu, mtvmul, vdot, dot, body, col0, col1, col2.
  cbn [v0 v1 v2 r0 r1 r2]. rrn. rewrite Ev. ring.
Qed.
