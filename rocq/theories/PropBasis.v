(** Properties C36 - C42: Fourier basis and target.  The notions are defined in SpecBasis.v. *)
From Coq Require Import Reals ZArith List Lia Lra Permutation.
From Coquelicot Require Import Coquelicot.
From Flocq Require Import IEEE754.BinarySingleNaN.
From Verif Require Import Outcome Num Float64 BasisModel SpecBasis BasisProofs.
Import ListNotations.
Local Open Scope R_scope.

(** C36 *)
Theorem C36_numbers : forall {T} {NT : Num T} (lx ly : T) n bs, (0 <= n)%Z -> basis_ctor lx ly n = Ok bs ->
  (n * n < 2 ^ 31)%Z /\ NoDup (bs_k bs) /\ lenZ (bs_k bs) = (n * n)%Z /\ length (bs_lam bs) = length (bs_k bs) /\
  (forall a b, In (a, b) (bs_k bs) <-> (0 <= a < n /\ 0 <= b < n)%Z) /\
  ((0 < n)%Z -> nth_error (bs_k bs) 0 = Some (0, 0)%Z).
Proof. exact @c36_numbers. Qed.
Print Assumptions C36_numbers.
Theorem C36_constructed : forall {T} {NT : Num T} (lx ly : T) n, (0 <= n)%Z -> (n * n < 2 ^ 31)%Z ->
  exists bs, basis_ctor lx ly n = Ok bs /\ bs_lx bs = lx /\ bs_ly bs = ly.
Proof. exact (fun T NT lx ly n H1 H2 => ex_intro _ _ (conj (ctor_ok lx ly n H1 H2) (conj eq_refl eq_refl))). Qed.
Print Assumptions C36_constructed.
Theorem C36_too_many : forall {T} {NT : Num T} (lx ly : T) n, (0 <= n)%Z -> (2 ^ 31 <= n * n)%Z ->
  basis_ctor lx ly n = Throw EArma \/ basis_ctor lx ly n = UB USignedOverflow.
Proof. exact @ctor_fails. Qed.
Print Assumptions C36_too_many.
Theorem C36_values : forall (bs : basis R) x y,
  length (fourierBasis bs (x, y)) = length (bs_k bs) /\
  forall i k, nth_error (bs_k bs) i = Some k ->
    nth_error (fourierBasis bs (x, y)) i = Some (mode (bs_lx bs) (bs_ly bs) k x y) /\
    -1 <= mode (bs_lx bs) (bs_ly bs) k x y <= 1 /\ (k = (0, 0)%Z -> mode (bs_lx bs) (bs_ly bs) k x y = 1).
Proof. exact c36_values. Qed.
Print Assumptions C36_values.
Theorem C36_weights : forall lx ly n (bs : basis R), (0 <= n)%Z -> basis_ctor lx ly n = Ok bs ->
  forall i k w, nth_error (bs_k bs) i = Some k -> nth_error (bs_lam bs) i = Some w ->
  0 < w <= 1 /\ (i = 0%nat -> w = 1) /\ w = / Rpower (1 + sqrt (IZR (norm2 k))) (3 / 2) /\
  forall i' k' w', nth_error (bs_k bs) i' = Some k' -> nth_error (bs_lam bs) i' = Some w' -> (norm2 k < norm2 k')%Z -> w' < w.
Proof. exact c36_weights. Qed.
Print Assumptions C36_weights.
Example C36_example : exists bs, basis_ctor 2 3 2 = Ok bs /\ bs_k bs = [(0, 0); (1, 0); (0, 1); (1, 1)]%Z.
Proof. eexists. split; reflexivity. Qed.

(** C37 *)
Theorem C37_gradient : forall (bs : basis R) x y i k, nth_error (bs_k bs) i = Some k ->
  exists gx gy, nth_error (gradFourierBasis bs (x, y)) i = Some (gx, gy) /\
    is_derive (fun t => nth i (fourierBasis bs (t, y)) 0) x gx /\
    is_derive (fun t => nth i (fourierBasis bs (x, t)) 0) y gy.
Proof. exact c37_gradient. Qed.
Print Assumptions C37_gradient.
Theorem C37_boundary : forall (bs : basis R) x y i gx gy, bs_lx bs <> 0 -> bs_ly bs <> 0 ->
  nth_error (gradFourierBasis bs (x, y)) i = Some (gx, gy) ->
  (x = 0 \/ x = bs_lx bs -> gx = 0) /\ (y = 0 \/ y = bs_ly bs -> gy = 0).
Proof. exact c37_boundary. Qed.
Print Assumptions C37_boundary.
Example C37_example : let bs := mkBasis 2 3 [] [(1, 0)%Z] in
  nth_error (bs_k bs) 0 = Some (1, 0)%Z /\ exists g, nth_error (gradFourierBasis bs (1, 1)) 0 = Some g.
Proof. split; [reflexivity|]. eexists. reflexivity. Qed.

(** C38 *)
Theorem C38_traj_mean : forall (bs : basis R) (xt : list (R * R)) i k, nth_error (bs_k bs) i = Some k ->
  nth_error (trajCoeff bs xt) i = Some (mean (map (fun p => mode (bs_lx bs) (bs_ly bs) k (fst p) (snd p)) xt)).
Proof. exact c38_traj. Qed.
Print Assumptions C38_traj_mean.
Theorem C38_traj_bounds : forall (bs : basis R) xt i c, xt <> [] -> nth_error (trajCoeff bs xt) i = Some c ->
  -1 <= c <= 1 /\ (nth_error (bs_k bs) i = Some (0, 0)%Z -> c = 1).
Proof. exact c38_traj_bounds. Qed.
Print Assumptions C38_traj_bounds.
Theorem C38_traj_order : forall (bs : basis R) xt xt', Permutation xt xt' -> trajCoeff bs xt = trajCoeff bs xt'.
Proof. exact c38_perm. Qed.
Print Assumptions C38_traj_order.
Theorem C38_spatial : forall (bs : basis R) vals pts i k, length vals = length pts -> nth_error (bs_k bs) i = Some k ->
  exists cs, spatialCoeff bs vals pts = Ok cs /\
    nth_error cs i = Some (rsum (map (fun p => mode (bs_lx bs) (bs_ly bs) k (fst (fst p)) (snd (fst p)) * snd p) (combine pts vals))).
Proof. exact c38_spatial. Qed.
Print Assumptions C38_spatial.
Theorem C38_spatial_bounds : forall (bs : basis R) vals pts cs i c,
  length vals = length pts -> Forall (fun v => 0 <= v) vals -> rsum vals = 1 ->
  spatialCoeff bs vals pts = Ok cs -> nth_error cs i = Some c ->
  -1 <= c <= 1 /\ (nth_error (bs_k bs) i = Some (0, 0)%Z -> c = 1).
Proof. exact c38_spatial_bounds. Qed.
Print Assumptions C38_spatial_bounds.
Example C38_example : rsum [1 / 4; 3 / 4] = 1 /\ Forall (fun v => 0 <= v) [1 / 4; 3 / 4] /\
  exists cs c, spatialCoeff (mkBasis 2 3 [1] [(0, 0)%Z]) [1 / 4; 3 / 4] [(0, 0); (1, 1)] = Ok cs /\ nth_error cs 0 = Some c.
Proof. split; [unfold rsum; cbn [fold_right]; lra|]. split; [repeat constructor; lra|]. do 2 eexists. split; reflexivity. Qed.

(** C39 *)
Theorem C39_sum : forall (t : target R) pt trans, evaluate t pt trans = rsum (map (fun g => gauss_trans g pt trans) t).
Proof. exact evaluate_sum. Qed.
Print Assumptions C39_sum.
Theorem C39_gaussian : forall mx my sx sy g x y tx ty, sx <> 0 -> sy <> 0 -> gaussian_ctor (mx, my) (sx, sy) = Ok g ->
  gauss_trans g (x, y) (tx, ty) = bump mx my sx sy (x + tx) (y + ty).
Proof. exact gauss_bump. Qed.
Print Assumptions C39_gaussian.
Theorem C39_gaussian_untranslated : forall mx my sx sy g x y, sx <> 0 -> sy <> 0 -> gaussian_ctor (mx, my) (sx, sy) = Ok g ->
  gauss_at g (x, y) = bump mx my sx sy x y.
Proof. exact gauss_bump0. Qed.
Print Assumptions C39_gaussian_untranslated.
Theorem C39_bump : forall mx my sx sy x y, sx <> 0 -> sy <> 0 ->
  0 < bump mx my sx sy x y <= 1 /\ (bump mx my sx sy x y = 1 <-> x = mx /\ y = my).
Proof. exact bump_range. Qed.
Print Assumptions C39_bump.
Theorem C39_translation : forall (t : target R) x y tx ty, evaluate t (x, y) (tx, ty) = evaluate t (x + tx, y + ty) (0, 0).
Proof. exact c39_translate. Qed.
Print Assumptions C39_translation.
Theorem C39_order : forall (t t' : target R) pt trans, Permutation t t' -> evaluate t pt trans = evaluate t' pt trans.
Proof. exact c39_perm. Qed.
Print Assumptions C39_order.
(** A zero standard deviation is rejected. *)
Theorem C39_constructor : forall mu sx sy,
  (sx <> 0 -> sy <> 0 -> exists g, gaussian_ctor mu (sx, sy) = Ok g) /\
  (sx = 0 \/ sy = 0 -> gaussian_ctor mu (sx, sy) = Throw EArma).
Proof. exact (fun mu sx sy => conj (fun H1 H2 => ex_intro _ _ (gaussian_ok mu sx sy H1 H2)) (gaussian_throws mu sx sy)). Qed.
Print Assumptions C39_constructor.
Example C39_example : exists g, gaussian_ctor (1, 2) (1 / 2, 3) = Ok g /\ gauss_at g (1, 2) = 1.
Proof.
  destruct (proj1 (C39_constructor (1, 2) (1 / 2) 3)) as [g E]; [lra|lra|]. exists g. split; [exact E|].
  rewrite (C39_gaussian_untranslated 1 2 (1 / 2) 3 g) by (lra || exact E).
  apply C39_bump; [lra|lra|]. split; reflexivity.
Qed.

(** C40 *)
Theorem C40_distribution : forall (t : target R) trans pts, t <> [] -> pts <> [] ->
  length (fill t trans pts) = length pts /\ Forall (fun v => 0 <= v) (fill t trans pts) /\ rsum (fill t trans pts) = 1 /\
  exists Z, 0 < Z /\ forall i pt, nth_error pts i = Some pt -> nth_error (fill t trans pts) i = Some (evaluate t pt trans / Z).
Proof. exact c40_fill. Qed.
Print Assumptions C40_distribution.
Theorem C40_empty_target_is_nan : forall (L : libm) trans (pts : list (b64 * b64)),
  length (@fill b64 (F64 L) [] trans pts) = length pts /\ Forall (fun v => is_nan v = true) (@fill b64 (F64 L) [] trans pts).
Proof. exact c40_empty. Qed.
Print Assumptions C40_empty_target_is_nan.
Example C40_example : [mkGaussian (0, 0) (1, 1) (1, 1)] <> [] /\ [(0, 0); (1, 1)] <> ([] : list (R * R)).
Proof. split; discriminate. Qed.

(** C41 *)
Theorem C41_history : forall {T} os (t t' : target T), Forall (fun o => match o with TAdd _ => True | TDel k => 0 <= k end)%Z os ->
  (run_tops t os = Ok t' <-> tops_spec t os t').
Proof. exact @c41_history. Qed.
Print Assumptions C41_history.
Theorem C41_invalid_delete_undefined : forall {T} (t : target T) k, (lenZ t <= k)%Z -> deleteGaussian t k = UB UIterator.
Proof. exact @c41_bad. Qed.
Print Assumptions C41_invalid_delete_undefined.
Example C41_example : forall a b c : gaussian R, run_tops [] [TAdd a; TAdd b; TDel 0; TAdd c] = Ok [b; c].
Proof. reflexivity. Qed.

(** C42 *)
Theorem C42_markers : forall {T} {NT : Num T} (t : target T), (lenZ t <= 2 ^ 31)%Z -> length (markers t) = length t /\
  forall i g, nth_error t i = Some g -> exists m, nth_error (markers t) i = Some m /\
    mk_id m = Z.of_nat i /\ mk_x m = fst (ga_mu g) /\ mk_y m = snd (ga_mu g).
Proof. exact @c42_markers. Qed.
Print Assumptions C42_markers.
Theorem C42_extent_is_sorted : forall mu sx sy g i, sx <> 0 -> sy <> 0 -> gaussian_ctor mu (sx, sy) = Ok g ->
  mk_sx (marker_of (i, g)) = 2 * Rmin (sx * sx) (sy * sy) /\ mk_sy (marker_of (i, g)) = 2 * Rmax (sx * sx) (sy * sy).
Proof. exact c42_extent. Qed.
Print Assumptions C42_extent_is_sorted.
(** A target three times as wide as high is drawn three (nine) times as high as wide. *)
Theorem C42_extent_follows_sigma_refuted : exists g m, gaussian_ctor (0, 0) (3, 1) = Ok g /\ nth_error (markers [g]) 0 = Some m /\
  mk_sx m = 2 /\ mk_sy m = 18.
Proof. exact c42_witness. Qed.
Print Assumptions C42_extent_follows_sigma_refuted.
