(** Lemmas behind the basis and target properties. *)
From Coq Require Import Reals Lra Lia ZArith List ZifyBool Permutation.
From Coquelicot Require Import Coquelicot.
From Flocq Require Import Core.Raux IEEE754.BinarySingleNaN.
From Verif Require Import Outcome Num Float64 FloatLemmas BufferModel BufferProofs BasisModel SpecBasis NumericsProofs.
Import ListNotations.
Local Open Scope R_scope.

Ltac rn := cbn [nadd nsub nmul ndiv nneg nabs nsqrt ncos nsin nexp npow nofZ npi nlt nle RNum] in *.

(** ** Sums *)
Lemma rsum_cons x l : rsum (x :: l) = x + rsum l. Proof. reflexivity. Qed.
Lemma rsum_nil : rsum [] = 0. Proof. reflexivity. Qed.
Arguments rsum l : simpl never.
Ltac rs := cbn [map fold_left length app combine fst snd]; rewrite ?rsum_cons, ?rsum_nil.
Lemma fold_plus l : forall a : R, fold_left Rplus l a = a + rsum l.
Proof. induction l as [|x l IH]; intros a; rs; [ring|]. rewrite IH. ring. Qed.
Lemma vsum_rsum (l : list R) : vsum l = rsum l.
Proof. unfold vsum, n0. rn. rewrite fold_plus. ring. Qed.
Lemma rsum_app l1 l2 : rsum (l1 ++ l2) = rsum l1 + rsum l2.
Proof. induction l1; rs; [ring|]. rewrite IHl1. ring. Qed.
Lemma rsum_perm l1 l2 : Permutation l1 l2 -> rsum l1 = rsum l2.
Proof. induction 1; rs; lra. Qed.
Lemma rsum_scale k l : rsum (map (fun x => x * k) l) = rsum l * k.
Proof. induction l; rs; [ring|]. rewrite IHl. ring. Qed.
Lemma rsum_nonneg l : Forall (fun x => 0 <= x) l -> 0 <= rsum l.
Proof. induction 1; rs; lra. Qed.
Lemma rsum_pos l : l <> [] -> Forall (fun x => 0 < x) l -> 0 < rsum l.
Proof.
  intros N H. destruct H as [|x l Hx H]; [congruence|]. rs.
  assert (0 <= rsum l) by (apply rsum_nonneg; eapply Forall_impl; [|exact H]; cbn; intros; lra). lra.
Qed.
Lemma rsum_const {A} (f : A -> R) c l : (forall x, In x l -> f x = c) -> rsum (map f l) = INR (length l) * c.
Proof.
  induction l as [|x l IH]; intros H; [rs; cbn; ring|]. rs.
  rewrite IH, (H x), S_INR by (cbn; auto; intros; apply H; right; assumption). ring.
Qed.
Lemma rsum_bound {A} (f : A -> R) c l : (forall x, In x l -> f x <= c) -> rsum (map f l) <= INR (length l) * c.
Proof.
  induction l as [|x l IH]; intros H; [rs; cbn; lra|]. rs.
  rewrite S_INR. pose proof (H x (or_introl eq_refl)). assert (rsum (map f l) <= INR (length l) * c) by (apply IH; intros; apply H; right; assumption). lra.
Qed.

(** ** C36 *)
Lemma zseq_In n z : In z (zseq n) <-> (0 <= z < Z.of_nat n)%Z.
Proof.
  unfold zseq. rewrite in_map_iff. split.
  - intros (k & <- & H). apply in_seq in H. lia.
  - intros H. exists (Z.to_nat z). split; [lia|]. apply in_seq. lia.
Qed.
Lemma zseq_NoDup n : NoDup (zseq n).
Proof. unfold zseq. apply FinFun.Injective_map_NoDup; [intros a b; lia|apply seq_NoDup]. Qed.
Lemma numbers_In n a b : In (a, b) (basis_numbers n) <-> (0 <= a < Z.of_nat n /\ 0 <= b < Z.of_nat n)%Z.
Proof.
  unfold basis_numbers. rewrite in_flat_map. split.
  - intros (i & Hi & H). apply in_map_iff in H. destruct H as (j & E & Hj). injection E as -> ->.
    apply zseq_In in Hi, Hj. tauto.
  - intros [Ha Hb]. exists b. split; [apply zseq_In; exact Hb|]. apply in_map_iff. exists a. split; [reflexivity|apply zseq_In; exact Ha].
Qed.
Lemma NoDup_flat {A B} (f : A -> list B) l : NoDup l -> (forall a, In a l -> NoDup (f a)) ->
  (forall a a' b, In a l -> In a' l -> In b (f a) -> In b (f a') -> a = a') -> NoDup (flat_map f l).
Proof.
  induction l as [|a l IH]; intros N H D; [constructor|]. inversion N; subst. cbn.
  assert (G : forall x y : list B, NoDup x -> NoDup y -> (forall b, In b x -> In b y -> False) -> NoDup (x ++ y)).
  { induction x as [|b x IHx]; intros y Nx Ny Dx; [exact Ny|]. inversion Nx; subst. cbn. constructor.
    - rewrite in_app_iff. intros [?|?]; [contradiction|]. apply (Dx b); [left; reflexivity|assumption].
    - apply IHx; auto. intros c Hc. apply Dx. right. exact Hc. }
  apply G.
  - apply H. left. reflexivity.
  - apply IH; auto.
    + intros. apply H. right. assumption.
    + intros a0 a' b I1 I2. apply D; right; assumption.
  - intros b I1 I2. apply in_flat_map in I2. destruct I2 as (a' & I2 & I3).
    assert (a = a') by (eapply D; eauto; [left; reflexivity|right; assumption]). subst. contradiction.
Qed.
Lemma numbers_NoDup n : NoDup (basis_numbers n).
Proof.
  apply NoDup_flat.
  - apply zseq_NoDup.
  - intros a _. apply FinFun.Injective_map_NoDup; [intros x y E; congruence|apply zseq_NoDup].
  - intros a a' b _ _ H1 H2. apply in_map_iff in H1, H2. destruct H1 as (? & <- & _), H2 as (? & E & _). congruence.
Qed.
Lemma numbers_length n : length (basis_numbers n) = (n * n)%nat.
Proof.
  unfold basis_numbers.
  assert (G : forall l, length (flat_map (fun i : Z => map (fun j => (j, i)) (zseq n)) l) = (length l * n)%nat).
  { induction l as [|i l IH]; [reflexivity|]. cbn. rewrite app_length, map_length, zseq_len, IH. reflexivity. }
  rewrite G, zseq_len. reflexivity.
Qed.
Lemma numbers_first n : (0 < n)%nat -> nth_error (basis_numbers n) 0 = Some (0, 0)%Z.
Proof. destruct n as [|n]; [lia|]. reflexivity. Qed.

Lemma ctor_ok {T} {NT : Num T} lx ly n : (0 <= n)%Z -> (n * n < 2 ^ 31)%Z ->
  basis_ctor lx ly n = Ok (mkBasis lx ly (map weight (basis_numbers (Z.to_nat n))) (basis_numbers (Z.to_nat n))).
Proof. intros H H2. unfold basis_ctor. change (2 ^ 31)%Z with two31 in H2. rewrite (proj2 (Z.ltb_lt _ _)) by exact H2. reflexivity. Qed.
Lemma ctor_fails {T} {NT : Num T} (lx ly : T) n : (0 <= n)%Z -> (2 ^ 31 <= n * n)%Z ->
  basis_ctor lx ly n = Throw EArma \/ basis_ctor lx ly n = UB USignedOverflow.
Proof.
  intros H H2. unfold basis_ctor. change (2 ^ 31)%Z with two31 in H2. rewrite (proj2 (Z.ltb_ge _ _)) by exact H2.
  destruct (_ && _); auto.
Qed.
Lemma c36_numbers {T} {NT : Num T} lx ly n bs : (0 <= n)%Z -> basis_ctor lx ly n = Ok bs ->
  (n * n < 2 ^ 31)%Z /\ NoDup (bs_k bs) /\ lenZ (bs_k bs) = (n * n)%Z /\ length (bs_lam bs) = length (bs_k bs) /\
  (forall a b, In (a, b) (bs_k bs) <-> (0 <= a < n /\ 0 <= b < n)%Z) /\
  ((0 < n)%Z -> nth_error (bs_k bs) 0 = Some (0, 0)%Z).
Proof.
  intros H E. assert (S : (n * n < 2 ^ 31)%Z).
  { destruct (Z_lt_le_dec (n * n) (2 ^ 31)); [assumption|]. destruct (ctor_fails lx ly n H l) as [C|C]; congruence. }
  rewrite (ctor_ok lx ly n H S) in E. injection E as <-. cbn [bs_k bs_lam]. split; [exact S|].
  split; [apply numbers_NoDup|]. split; [unfold lenZ; rewrite numbers_length; lia|]. split; [apply map_length|].
  split.
  - intros a b. rewrite numbers_In. lia.
  - intros P. apply numbers_first. lia.
Qed.

Lemma basis_fun_mode (bs : basis R) x y k : basis_fun bs (x, y) k = mode (bs_lx bs) (bs_ly bs) k x y.
Proof.
  unfold basis_fun, mode. rn. cbn [fst snd]. f_equal; f_equal; unfold Rdiv; ring.
Qed.
Lemma mode_bound lx ly k x y : -1 <= mode lx ly k x y <= 1.
Proof.
  unfold mode. pose proof (COS_bound (IZR (fst k) * PI * x / lx)). pose proof (COS_bound (IZR (snd k) * PI * y / ly)). nra.
Qed.
Lemma mode_zero lx ly x y : mode lx ly (0, 0)%Z x y = 1.
Proof. unfold mode. cbn. replace (0 * PI * x / lx) with 0 by (unfold Rdiv; ring). replace (0 * PI * y / ly) with 0 by (unfold Rdiv; ring). rewrite cos_0. ring. Qed.
Lemma c36_values (bs : basis R) x y :
  length (fourierBasis bs (x, y)) = length (bs_k bs) /\
  forall i k, nth_error (bs_k bs) i = Some k ->
    nth_error (fourierBasis bs (x, y)) i = Some (mode (bs_lx bs) (bs_ly bs) k x y) /\
    -1 <= mode (bs_lx bs) (bs_ly bs) k x y <= 1 /\ (k = (0, 0)%Z -> mode (bs_lx bs) (bs_ly bs) k x y = 1).
Proof.
  split; [apply map_length|]. intros i k H. split; [|split].
  - unfold fourierBasis. rewrite (map_nth_error _ _ _ H). rewrite basis_fun_mode. reflexivity.
  - apply mode_bound.
  - intros ->. apply mode_zero.
Qed.
Lemma weight_R k : weight k = / Rpower (1 + sqrt (IZR (norm2 k))) (3 / 2).
Proof. unfold weight, norm2, lit, n1. rn. unfold Rdiv. rewrite Rmult_1_l. reflexivity. Qed.
Lemma weight_pos k : 0 < weight k <= 1.
Proof.
  rewrite weight_R. assert (0 < Rpower (1 + sqrt (IZR (norm2 k))) (3 / 2)) by (unfold Rpower; apply exp_pos).
  split; [apply Rinv_0_lt_compat; assumption|].
  rewrite <- Rinv_1. apply Rinv_le_contravar; [lra|]. 
  replace 1 with (Rpower 1 (3 / 2)) at 1 by (unfold Rpower; rewrite ln_1, Rmult_0_r, exp_0; reflexivity).
  apply Rle_Rpower_l; [lra|]. pose proof (sqrt_pos (IZR (norm2 k))). lra.
Qed.
Lemma weight_decr k k' : (norm2 k < norm2 k')%Z -> weight k' < weight k.
Proof.
  intros H. rewrite !weight_R. apply Rinv_lt_contravar.
  - apply Rmult_lt_0_compat; unfold Rpower; apply exp_pos.
  - apply Rlt_Rpower_l; [lra|]. pose proof (sqrt_pos (IZR (norm2 k))). split; [lra|].
    apply Rplus_lt_compat_l. apply sqrt_lt_1; [apply IZR_le; unfold norm2; nia|apply IZR_le; unfold norm2; nia|apply IZR_lt; exact H].
Qed.
Lemma weight_zero : weight (0, 0)%Z = 1.
Proof. rewrite weight_R. unfold norm2; cbn. rewrite sqrt_0, Rplus_0_r. unfold Rpower. rewrite ln_1, Rmult_0_r, exp_0. apply Rinv_1. Qed.
Lemma c36_weights lx ly n (bs : basis R) : (0 <= n)%Z -> basis_ctor lx ly n = Ok bs ->
  forall i k w, nth_error (bs_k bs) i = Some k -> nth_error (bs_lam bs) i = Some w ->
  0 < w <= 1 /\ (i = 0%nat -> w = 1) /\ (w = / Rpower (1 + sqrt (IZR (norm2 k))) (3 / 2)) /\
  forall i' k' w', nth_error (bs_k bs) i' = Some k' -> nth_error (bs_lam bs) i' = Some w' -> (norm2 k < norm2 k')%Z -> w' < w.
Proof.
  intros H E. destruct (c36_numbers lx ly n bs H E) as (S & _ & _ & _ & _ & F).
  assert (Ew : bs_lam bs = map weight (bs_k bs)) by (rewrite (ctor_ok lx ly n H S) in E; injection E as <-; reflexivity).
  intros i k w Hk Hw. rewrite Ew in *. rewrite (map_nth_error _ _ _ Hk) in Hw. injection Hw as <-.
  split; [apply weight_pos|]. split.
  - intros ->. assert (0 < n)%Z.
    { destruct (Z.eq_dec n 0); [|lia]. subst. rewrite (ctor_ok lx ly 0 H S) in E. injection E as <-. cbn in Hk. discriminate. }
    rewrite F in Hk by assumption. injection Hk as <-. apply weight_zero.
  - split; [apply weight_R|]. intros i' k' w' Hk' Hw' L. rewrite (map_nth_error _ _ _ Hk') in Hw'. injection Hw' as <-.
    apply weight_decr. exact L.
Qed.

(** ** C37 *)
Lemma c37_gradient (bs : basis R) x y i k : nth_error (bs_k bs) i = Some k ->
  exists gx gy, nth_error (gradFourierBasis bs (x, y)) i = Some (gx, gy) /\
    is_derive (fun t => nth i (fourierBasis bs (t, y)) 0) x gx /\
    is_derive (fun t => nth i (fourierBasis bs (x, t)) 0) y gy.
Proof.
  intros H. unfold gradFourierBasis. rewrite (map_nth_error _ _ _ H).
  destruct (basis_grad bs (x, y) k) as [gx gy] eqn:E. exists gx, gy. split; [reflexivity|].
  unfold basis_grad in E. rn. cbn [fst snd] in E. injection E as <- <-.
  assert (N : forall p, nth i (fourierBasis bs p) 0 = basis_fun bs p k).
  { intros p. apply nth_error_nth. unfold fourierBasis. apply map_nth_error. exact H. }
  split.
  - apply (is_derive_ext (fun t => basis_fun bs (t, y) k)); [intros; symmetry; apply N|].
    unfold basis_fun. rn. cbn [fst snd]. auto_derive; [trivial|]. ring.
  - apply (is_derive_ext (fun t => basis_fun bs (x, t) k)); [intros; symmetry; apply N|].
    unfold basis_fun. rn. cbn [fst snd]. auto_derive; [trivial|]. ring.
Qed.
Lemma sin_kpi k : sin (IZR k * PI) = 0.
Proof. apply sin_eq_0_1. exists k. reflexivity. Qed.
Lemma c37_boundary (bs : basis R) x y i gx gy : bs_lx bs <> 0 -> bs_ly bs <> 0 ->
  nth_error (gradFourierBasis bs (x, y)) i = Some (gx, gy) ->
  (x = 0 \/ x = bs_lx bs -> gx = 0) /\ (y = 0 \/ y = bs_ly bs -> gy = 0).
Proof.
  intros Lx Ly H. unfold gradFourierBasis in H.
  destruct (nth_error (bs_k bs) i) as [k|] eqn:K.
  2:{ apply nth_error_None in K. apply nth_error_Some_le in H || (assert (i < length (map (basis_grad bs (x, y)) (bs_k bs)))%nat by (apply nth_error_Some; congruence); rewrite map_length in *; lia). }
  rewrite (map_nth_error _ _ _ K) in H. assert (H' : basis_grad bs (x, y) k = (gx, gy)) by congruence. clear H. rename H' into H. unfold basis_grad in H. rn. cbn [fst snd] in H. injection H as <- <-.
  split.
  - intros [->| ->].
    + rewrite Rmult_0_r, sin_0. ring.
    + replace (IZR (fst k) * (PI / bs_lx bs) * bs_lx bs) with (IZR (fst k) * PI) by (field; assumption). rewrite sin_kpi. ring.
  - intros [->| ->].
    + rewrite Rmult_0_r, sin_0. ring.
    + replace (IZR (snd k) * (PI / bs_ly bs) * bs_ly bs) with (IZR (snd k) * PI) by (field; assumption). rewrite sin_kpi. ring.
Qed.

(** ** C38 *)
Lemma row_sum_nth n cols i : (i < n)%nat -> Forall (fun c => length c = n) cols ->
  nth_error (row_sum (T := R) n cols) i = Some (rsum (map (fun c => nth i c 0) cols)).
Proof.
  intros Hi H. unfold row_sum.
  assert (G : forall cols acc, length acc = n -> Forall (fun c => length c = n) cols ->
    nth_error (fold_left (fun acc c => map (fun p : R * R => (fst p + snd p)%num) (combine acc c)) cols acc) i
    = Some (nth i acc 0 + rsum (map (fun c => nth i c 0) cols))).
  { clear H cols. induction cols as [|c cols IH]; intros acc L F.
    - rs. rewrite Rplus_0_r. apply nth_error_nth'. lia.
    - inversion F; subst. cbn [fold_left]. rewrite IH; [|rewrite map_length, combine_length; lia|assumption].
      rs. f_equal.
      assert (E : nth i (map (fun p : R * R => (fst p + snd p)%num) (combine acc c)) 0 = nth i acc 0 + nth i c 0).
      { apply nth_error_nth. rewrite (map_nth_error _ _ (combine acc c) (d := (nth i acc 0, nth i c 0))); [reflexivity|].
        rewrite nth_error_nth' with (d := (0, 0)) by (rewrite combine_length; lia). rewrite combine_nth by lia. reflexivity. }
      rewrite E. ring. }
  rewrite G; [|apply repeat_length|assumption]. f_equal. unfold n0. rn. rewrite nth_repeat. ring.
Qed.
Lemma c38_traj (bs : basis R) (xt : list (point R)) i k : nth_error (bs_k bs) i = Some k ->
  nth_error (trajCoeff bs xt) i = Some (mean (map (fun p => mode (bs_lx bs) (bs_ly bs) k (fst p) (snd p)) xt)).
Proof.
  intros H. unfold trajCoeff. rewrite (map_nth_error _ _ _ (row_sum_nth (length (bs_k bs)) (map (fourierBasis bs) xt) i
     ltac:(apply nth_error_Some; congruence) ltac:(apply Forall_forall; intros c Hc; apply in_map_iff in Hc; destruct Hc as (p & <- & _); apply map_length))).
  f_equal. unfold mean, n1, lenZ. rn. rewrite map_map, map_length. rewrite <- INR_IZR_INZ.
  rewrite (map_ext (fun p => nth i (fourierBasis bs p) 0) (fun p => mode (bs_lx bs) (bs_ly bs) k (fst p) (snd p))); [unfold Rdiv; ring|].
  intros [x y]. rewrite <- basis_fun_mode. apply nth_error_nth. unfold fourierBasis. apply map_nth_error. exact H.
Qed.
Lemma mean_bound {A} (f : A -> R) l : l <> [] -> (forall x, -1 <= f x <= 1) -> -1 <= mean (map f l) <= 1.
Proof.
  intros N H. unfold mean. rewrite map_length. assert (P : 0 < INR (length l)) by (apply lt_0_INR; destruct l; [congruence|cbn; lia]).
  assert (U : rsum (map f l) <= INR (length l) * 1) by (apply rsum_bound; intros; apply H).
  assert (L : rsum (map (fun x => - f x) l) <= INR (length l) * 1) by (apply rsum_bound; intros; pose proof (H x); lra).
  assert (E : rsum (map (fun x => - f x) l) = - rsum (map f l)) by (clear; induction l; rs; [ring|]; rewrite IHl; ring).
  split; apply (Rmult_le_reg_r (INR (length l))); auto; unfold Rdiv; rewrite Rmult_assoc, Rinv_l by lra; lra.
Qed.
Lemma c38_traj_bounds (bs : basis R) xt i c : xt <> [] -> nth_error (trajCoeff bs xt) i = Some c ->
  -1 <= c <= 1 /\ (nth_error (bs_k bs) i = Some (0, 0)%Z -> c = 1).
Proof.
  intros N H. destruct (nth_error (bs_k bs) i) as [k|] eqn:K.
  - rewrite (c38_traj bs xt i k K) in H. injection H as <-. split.
    + apply (mean_bound (fun p : point R => mode (bs_lx bs) (bs_ly bs) k (fst p) (snd p))); [exact N|intros; apply mode_bound].
    + intros E. injection E as ->. unfold mean. rewrite (rsum_const _ 1) by (intros; apply mode_zero). rewrite map_length. field.
      apply not_0_INR. destruct xt; [congruence|discriminate].
  - exfalso. apply nth_error_None in K. assert (L : (i < length (trajCoeff bs xt))%nat) by (apply nth_error_Some; congruence).
    unfold trajCoeff in L. rewrite map_length in L.
    assert (G : forall cols acc, (length (fold_left (fun acc c => map (fun p : R * R => (fst p + snd p)%num) (combine acc c)) cols acc) <= length acc)%nat).
    { clear. induction cols as [|c cols IH]; intros acc; cbn; [lia|]. eapply Nat.le_trans; [apply IH|]. rewrite map_length, combine_length. lia. }
    unfold row_sum in L. pose proof (G (map (fourierBasis bs) xt) (repeat n0 (length (bs_k bs)))) as G'. rewrite repeat_length in G'. lia.
Qed.
Lemma trajCoeff_length (bs : basis R) xt : length (trajCoeff bs xt) = length (bs_k bs).
Proof.
  unfold trajCoeff. rewrite map_length. unfold row_sum.
  assert (G : forall cols acc n, length acc = n -> Forall (fun c => length c = n) cols -> (length (fold_left (fun acc c => map (fun p : R * R => (fst p + snd p)%num) (combine acc c)) cols acc) = n)%nat).
  { induction cols as [|c cols IH]; intros acc n L F; cbn; [exact L|]. inversion F; subst. apply IH; [rewrite map_length, combine_length; lia|assumption]. }
  apply G; [apply repeat_length|]. apply Forall_forall; intros c Hc; apply in_map_iff in Hc; destruct Hc as (p & <- & _); apply map_length.
Qed.
Lemma nth_error_ext {A} (l1 : list A) : forall l2, (forall k, nth_error l1 k = nth_error l2 k) -> l1 = l2.
Proof.
  induction l1 as [|a l1 IH]; intros [|b l2] H; try reflexivity; try (specialize (H 0%nat); discriminate).
  pose proof (H 0%nat) as H0. cbn in H0. injection H0 as ->. f_equal. apply IH. intros k. apply (H (S k)).
Qed.
Lemma c38_perm (bs : basis R) xt xt' : Permutation xt xt' -> trajCoeff bs xt = trajCoeff bs xt'.
Proof.
  intros P. apply nth_error_ext. intros i. destruct (nth_error (bs_k bs) i) as [k|] eqn:K.
  - rewrite !(c38_traj bs _ i k K). f_equal. unfold mean. rewrite !map_length, (Permutation_length P). f_equal.
    apply rsum_perm. apply Permutation_map. exact P.
  - apply nth_error_None in K. transitivity (@None R); [|symmetry]; apply nth_error_None; rewrite trajCoeff_length; exact K.
Qed.
Lemma c38_spatial (bs : basis R) vals pts i k : length vals = length pts -> nth_error (bs_k bs) i = Some k ->
  exists cs, spatialCoeff bs vals pts = Ok cs /\
    nth_error cs i = Some (rsum (map (fun p => mode (bs_lx bs) (bs_ly bs) k (fst (fst p)) (snd (fst p)) * snd p) (combine pts vals))).
Proof.
  intros L K. unfold spatialCoeff, lenZ. rewrite L, Z.ltb_irrefl. eexists. split; [reflexivity|].
  rewrite row_sum_nth.
  - f_equal. rewrite map_map. f_equal. apply map_ext. intros [[x y] v]. cbn [fst snd]. rewrite <- basis_fun_mode.
    apply nth_error_nth. rn. apply (map_nth_error (fun f => f * v)). unfold fourierBasis. apply map_nth_error. exact K.
  - apply nth_error_Some. congruence.
  - apply Forall_forall; intros c Hc; apply in_map_iff in Hc; destruct Hc as (p & <- & _). rewrite map_length. apply map_length.
Qed.
Lemma weighted_bound {A} (f : A -> R) (l : list A) : (forall a, -1 <= f a <= 1) -> forall vals, length vals = length l -> Forall (fun v => 0 <= v) vals ->
  - rsum vals <= rsum (map (fun p => f (fst p) * snd p) (combine l vals)) <= rsum vals.
Proof.
  intros H. induction l as [|a l IH]; intros [|v vals] L F; try discriminate; [rs; lra|].
  inversion F; subst. cbn in L. injection L as L. specialize (IH vals L H3). rs.
  pose proof (H a). nra.
Qed.
Lemma c38_spatial_bounds (bs : basis R) vals pts cs i c : length vals = length pts -> Forall (fun v => 0 <= v) vals -> rsum vals = 1 ->
  spatialCoeff bs vals pts = Ok cs -> nth_error cs i = Some c ->
  -1 <= c <= 1 /\ (nth_error (bs_k bs) i = Some (0, 0)%Z -> c = 1).
Proof.
  intros L F S E Hc. destruct (nth_error (bs_k bs) i) as [k|] eqn:K.
  - destruct (c38_spatial bs vals pts i k L K) as (cs' & E' & H). rewrite E in E'. injection E' as <-. rewrite Hc in H. injection H as ->.
    split.
    + pose proof (weighted_bound (fun p : point R => mode (bs_lx bs) (bs_ly bs) k (fst p) (snd p)) pts (fun a => mode_bound _ _ _ _ _) vals L F). cbn beta in H. rewrite S in H. exact H.
    + intros E0. injection E0 as ->. transitivity (rsum vals); [|exact S]. clear - L. revert vals L.
      induction pts as [|p pts IH]; intros [|v vals] L; try discriminate; [reflexivity|].
      rs. rewrite mode_zero. cbn in L. injection L as L. rewrite <- (IH vals L). ring.
  - exfalso. apply nth_error_None in K. assert (Li : (i < length cs)%nat) by (apply nth_error_Some; congruence).
    unfold spatialCoeff in E. destruct (_ <? _)%Z; [discriminate|]. injection E as <-.
    assert (G : forall cols acc, (length (fold_left (fun acc c => map (fun p : R * R => (fst p + snd p)%num) (combine acc c)) cols acc) <= length acc)%nat).
    { clear. induction cols as [|c cols IH]; intros acc; cbn; [lia|]. eapply Nat.le_trans; [apply IH|]. rewrite map_length, combine_length. lia. }
    unfold row_sum in Li. match type of Li with (_ < length (fold_left _ ?cols ?acc))%nat => pose proof (G cols acc) as G' end. rewrite repeat_length in G'. lia.
Qed.

(** ** C39 *)
Definition proper (g : gaussian R) : Prop := exists mu sg, gaussian_ctor mu sg = Ok g.
Lemma gaussian_ok mu sx sy : sx <> 0 -> sy <> 0 ->
  gaussian_ctor mu (sx, sy) = Ok (mkGaussian mu (sx * sx, sy * sy) (1 / (sx * sx), 1 / (sy * sy))).
Proof.
  intros Hx Hy. unfold gaussian_ctor, n0, n1. rn. cbn [fst snd].
  assert (0 < sx * sx) by (apply Rlt_0_sqr; exact Hx). assert (0 < sy * sy) by (apply Rlt_0_sqr; exact Hy).
  replace (Rleb (sx * sx) 0) with false by (symmetry; apply Rleb_false; assumption).
  replace (Rleb (sy * sy) 0) with false by (symmetry; apply Rleb_false; assumption). reflexivity.
Qed.
Lemma gaussian_throws mu sx sy : sx = 0 \/ sy = 0 -> gaussian_ctor mu (sx, sy) = Throw EArma.
Proof.
  intros D. unfold gaussian_ctor, n0, n1. rn. cbn [fst snd].
  assert (Z0 : Rleb 0 0 = true) by (apply Rleb_true; lra).
  destruct D as [->| ->]; rewrite Rmult_0_l, Z0; [reflexivity|]. cbn. rewrite Bool.orb_true_r. reflexivity.
Qed.
Lemma gauss_bump mx my sx sy g x y tx ty : sx <> 0 -> sy <> 0 -> gaussian_ctor (mx, my) (sx, sy) = Ok g ->
  gauss_trans g (x, y) (tx, ty) = bump mx my sx sy (x + tx) (y + ty).
Proof.
  intros Hx Hy E. rewrite gaussian_ok in E by assumption. injection E as <-.
  unfold gauss_trans, gauss_exp, bump, lit, n0. rn. cbn [fst snd ga_mu ga_inv]. f_equal. field. split; assumption.
Qed.
Lemma gauss_bump0 mx my sx sy g x y : sx <> 0 -> sy <> 0 -> gaussian_ctor (mx, my) (sx, sy) = Ok g ->
  gauss_at g (x, y) = bump mx my sx sy x y.
Proof.
  intros Hx Hy E. rewrite gaussian_ok in E by assumption. injection E as <-.
  unfold gauss_at, gauss_exp, bump, lit, n0. rn. cbn [fst snd ga_mu ga_inv]. f_equal. field. split; assumption.
Qed.
Lemma bump_range mx my sx sy x y : sx <> 0 -> sy <> 0 ->
  0 < bump mx my sx sy x y <= 1 /\ (bump mx my sx sy x y = 1 <-> x = mx /\ y = my).
Proof.
  intros Hx Hy. unfold bump. set (e := _ + _). 
  assert (Px : 0 < sx * sx) by (apply Rlt_0_sqr; exact Hx). assert (Py : 0 < sy * sy) by (apply Rlt_0_sqr; exact Hy).
  assert (Ax : 0 <= (x - mx) * (x - mx) / (sx * sx)) by (apply Rmult_le_pos; [apply Rle_0_sqr|left; apply Rinv_0_lt_compat; assumption]).
  assert (Ay : 0 <= (y - my) * (y - my) / (sy * sy)) by (apply Rmult_le_pos; [apply Rle_0_sqr|left; apply Rinv_0_lt_compat; assumption]).
  split; [split; [apply exp_pos|]|].
  - rewrite <- exp_0. destruct (Req_dec e 0) as [->|N]; [apply Req_le; f_equal; field|left; apply exp_increasing; unfold e in *; lra].
  - split.
    + intros E. rewrite <- exp_0 in E. apply exp_inv in E. unfold e in E.
      assert (Bx : (x - mx) * (x - mx) / (sx * sx) = 0) by lra. assert (By : (y - my) * (y - my) / (sy * sy) = 0) by lra.
      assert (Cx : (x - mx) * (x - mx) = 0) by (apply (Rmult_eq_reg_r (/ (sx * sx))); [unfold Rdiv in Bx; lra|apply Rinv_neq_0_compat; lra]).
      assert (Cy : (y - my) * (y - my) = 0) by (apply (Rmult_eq_reg_r (/ (sy * sy))); [unfold Rdiv in By; lra|apply Rinv_neq_0_compat; lra]).
      apply Rsqr_0_uniq in Cx. apply Rsqr_0_uniq in Cy. lra.
    + intros [-> ->]. rewrite <- exp_0. f_equal. unfold e. field. split; assumption.
Qed.
Lemma evaluate_sum (t : target R) pt trans : evaluate t pt trans = rsum (map (fun g => gauss_trans g pt trans) t).
Proof.
  unfold evaluate, n0. rn. assert (G : forall t a, fold_left (fun val g => val + gauss_trans g pt trans) t a = a + rsum (map (fun g => gauss_trans g pt trans) t)).
  { clear. induction t as [|g t IH]; intros a; rs; [ring|]. rewrite IH. ring. }
  rewrite G. ring.
Qed.
Lemma c39_translate (t : target R) x y tx ty : evaluate t (x, y) (tx, ty) = evaluate t (x + tx, y + ty) (0, 0).
Proof.
  rewrite !evaluate_sum. f_equal. apply map_ext. intros g. unfold gauss_trans. rn. cbn [fst snd]. f_equal. f_equal; ring.
Qed.
Lemma c39_perm (t t' : target R) pt trans : Permutation t t' -> evaluate t pt trans = evaluate t' pt trans.
Proof. intros P. rewrite !evaluate_sum. apply rsum_perm. apply Permutation_map. exact P. Qed.
Lemma c39_add (t : target R) g pt trans : evaluate (addGaussian t g) pt trans = evaluate t pt trans + gauss_trans g pt trans.
Proof. rewrite !evaluate_sum. unfold addGaussian. rewrite map_app, rsum_app. rs. ring. Qed.
Lemma gauss_pos (g : gaussian R) pt trans : 0 < gauss_trans g pt trans.
Proof. unfold gauss_trans, gauss_exp. rn. apply exp_pos. Qed.

(** ** C40 *)
Lemma c40_fill (t : target R) trans pts : t <> [] -> pts <> [] ->
  length (fill t trans pts) = length pts /\ Forall (fun v => 0 <= v) (fill t trans pts) /\ rsum (fill t trans pts) = 1 /\
  exists Z, 0 < Z /\ forall i pt, nth_error pts i = Some pt -> nth_error (fill t trans pts) i = Some (evaluate t pt trans / Z).
Proof.
  intros Nt Np. unfold fill. rewrite vsum_rsum. set (vals := map (fun pt => evaluate t pt trans) pts).
  assert (Pv : Forall (fun v => 0 < v) vals).
  { apply Forall_forall. intros v Hv. apply in_map_iff in Hv. destruct Hv as (pt & <- & _). rewrite evaluate_sum.
    apply rsum_pos; [destruct t; [congruence|discriminate]|]. apply Forall_forall. intros w Hw. apply in_map_iff in Hw. destruct Hw as (g & <- & _). apply gauss_pos. }
  assert (S : 0 < rsum vals) by (apply rsum_pos; [unfold vals; destruct pts; [congruence|discriminate]|exact Pv]).
  rn. split; [rewrite map_length; apply map_length|]. split; [|split].
  - apply Forall_forall. intros v Hv. apply in_map_iff in Hv. destruct Hv as (w & <- & Hw). rewrite Forall_forall in Pv. pose proof (Pv w Hw).
    apply Rmult_le_pos; [lra|]. left. apply Rinv_0_lt_compat. exact S.
  - unfold Rdiv. rewrite (rsum_scale (/ rsum vals) vals). field. lra.
  - exists (rsum vals). split; [exact S|]. intros i pt H. apply (map_nth_error (fun v => v / rsum vals)). unfold vals. apply (map_nth_error (fun pt => evaluate t pt trans)). exact H.
Qed.
Lemma c40_empty (L : libm) trans (pts : list (point b64)) :
  length (@fill b64 (F64 L) [] trans pts) = length pts /\ Forall (fun v => is_nan v = true) (@fill b64 (F64 L) [] trans pts).
Proof.
  unfold fill. split; [rewrite !map_length; reflexivity|].
  assert (S : @vsum b64 (F64 L) (map (fun pt => @evaluate b64 (F64 L) [] pt trans) pts) = B754_zero false).
  { unfold vsum. change (@n0 b64 (F64 L)) with (B754_zero false : b64). induction pts as [|p pts IH]; [reflexivity|]. cbn [map fold_left]. exact IH. }
  rewrite S. apply Forall_forall. intros v Hv. apply in_map_iff in Hv. destruct Hv as (w & <- & Hw).
  apply in_map_iff in Hw. destruct Hw as (p & <- & _). reflexivity.
Qed.

(** ** C41 *)
Lemma erase_app {T} (l1 : target T) g l2 : erase (l1 ++ g :: l2) (length l1) = Ok (l1 ++ l2).
Proof. induction l1 as [|a l1 IH]; cbn; [reflexivity|]. rewrite IH. reflexivity. Qed.
Lemma erase_ub {T} (t : target T) : forall k, (length t <= k)%nat -> erase t k = UB UIterator.
Proof. induction t as [|a t IH]; intros [|k] H; cbn in *; try reflexivity; try lia. rewrite IH by lia. reflexivity. Qed.
Lemma top_iff {T} (t : target T) o t' : (match o with TAdd _ => True | TDel k => 0 <= k end)%Z -> (run_top t o = Ok t' <-> top_spec t o t').
Proof.
  intros Hk. destruct o as [g|k]; cbn.
  - unfold addGaussian. split; congruence.
  - unfold deleteGaussian. split.
    + intros H. assert (L : (Z.to_nat k < length t)%nat).
      { destruct (le_lt_dec (length t) (Z.to_nat k)) as [G|G]; [|exact G]. rewrite erase_ub in H by exact G. discriminate. }
      destruct (nth_error t (Z.to_nat k)) as [g|] eqn:E; [|apply nth_error_None in E; lia].
      apply nth_error_split in E. destruct E as (l1 & l2 & -> & E). rewrite <- E, erase_app in H. injection H as <-.
      exists l1, g, l2. split; [reflexivity|]. split; [lia|reflexivity].
    + intros (l1 & g & l2 & -> & E & ->). rewrite <- E, Nat2Z.id. apply erase_app.
Qed.
Lemma c41_history {T} os : forall (t t' : target T), Forall (fun o => match o with TAdd _ => True | TDel k => 0 <= k end)%Z os ->
  (run_tops t os = Ok t' <-> tops_spec t os t').
Proof.
  induction os as [|o os IH]; intros t t' F; cbn.
  - split; [intros E; injection E as ->; constructor|intros H; inversion H; reflexivity].
  - apply Forall_inv in F as F1. apply Forall_inv_tail in F as F2. split.
    + intros H. destruct (run_top t o) as [t1| | |] eqn:E; try discriminate. cbn in H.
      apply ts_cons with t1; [apply top_iff; assumption|apply IH; assumption].
    + intros H. inversion H; subst. match goal with h : top_spec t o ?t1 |- _ => rewrite (proj2 (top_iff t o t1 F1) h) end. cbn. apply IH; assumption.
Qed.
Lemma c41_bad {T} (t : target T) k : (lenZ t <= k)%Z -> deleteGaussian t k = UB UIterator.
Proof. intros H. apply erase_ub. unfold lenZ in H. lia. Qed.

(** ** C42 *)
Lemma combine_zseq {A} (l : list A) i a : nth_error l i = Some a -> nth_error (combine (zseq (length l)) l) i = Some (Z.of_nat i, a).
Proof.
  intros H. assert (i < length l)%nat by (apply nth_error_Some; congruence).
  rewrite nth_error_nth' with (d := (Z.of_nat i, a)) by (rewrite combine_length, zseq_len; lia).
  rewrite combine_nth by apply zseq_len. f_equal. f_equal.
  - unfold zseq. rewrite map_nth. rewrite seq_nth by assumption. reflexivity.
  - apply nth_error_nth. exact H.
Qed.
Lemma c42_markers {T} {NT : Num T} (t : target T) : (lenZ t <= 2 ^ 31)%Z -> length (markers t) = length t /\
  forall i g, nth_error t i = Some g -> exists m, nth_error (markers t) i = Some m /\
    mk_id m = Z.of_nat i /\ mk_x m = fst (ga_mu g) /\ mk_y m = snd (ga_mu g).
Proof.
  intros HL. split; [unfold markers; rewrite map_length, combine_length, zseq_len; lia|].
  intros i g H. exists (marker_of (Z.of_nat i, g)). split; [apply map_nth_error; apply combine_zseq; exact H|].
  split; [|split; reflexivity]. cbn. unfold s32, u32, lenZ in *. assert (i < length t)%nat by (apply nth_error_Some; congruence).
  change (2 ^ 31)%Z with two31 in HL. unfold two31, two32 in *. rewrite Z.mod_small by lia.
  rewrite (proj2 (Z.ltb_lt _ _)) by lia. reflexivity.
Qed.
Lemma c42_extent mu sx sy g i : sx <> 0 -> sy <> 0 -> gaussian_ctor mu (sx, sy) = Ok g ->
  mk_sx (marker_of (i, g)) = 2 * Rmin (sx * sx) (sy * sy) /\ mk_sy (marker_of (i, g)) = 2 * Rmax (sx * sx) (sy * sy).
Proof.
  intros Hx Hy E. rewrite gaussian_ok in E by assumption. injection E as <-. unfold marker_of, eig_diag, n2. cbn [snd ga_cov fst mk_sx mk_sy]. rn.
  destruct (Rltb (sy * sy) (sx * sx)) eqn:D; cbn [fst snd].
  - apply Rltb_true in D. rewrite Rmin_right, Rmax_left by lra. split; reflexivity.
  - apply Rltb_false in D. rewrite Rmin_left, Rmax_right by lra. split; reflexivity.
Qed.
Lemma c42_witness : exists g m, gaussian_ctor (0, 0) (3, 1) = Ok g /\ nth_error (markers [g]) 0 = Some m /\
  mk_sx m = 2 /\ mk_sy m = 18.
Proof.
  eexists. exists (marker_of (0%Z, mkGaussian (0, 0) (3 * 3, 1 * 1) (1 / (3 * 3), 1 / (1 * 1)))).
  split; [apply gaussian_ok; lra|]. split; [reflexivity|].
  destruct (c42_extent (0, 0) 3 1 _ 0%Z ltac:(lra) ltac:(lra) (gaussian_ok (0, 0) 3 1 ltac:(lra) ltac:(lra))) as [E1 E2].
  rewrite E1, E2, Rmin_right, Rmax_left by lra. lra.
Qed.
