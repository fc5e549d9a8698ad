(** Proofs about targets out of sight: the coefficients are not numbers, nor is any control of the plan. *)
From Coq Require Import ZArith List Bool Lia.
From Flocq Require Import IEEE754.BinarySingleNaN.
From Verif Require Import Outcome Num Float64 FloatLemmas GridModel CollisionModel NumericsModel BufferModel BasisModel RobotModel DwaModel ErgodicModel
  ExplorationModel SpecDwa SpecErgodic SpecExploration SpecFar BasisProofs ErgodicProofs DwaProofs ExplorationProofs FreeProofs.
Import ListNotations ExplorationModel.
Ltac Zify.zify_post_hook ::= idtac.

Section Lib.
Variable L : libm.
Local Instance NL : Num b64 := F64 L.
Notation NAN := (@B754_nan 53 1024 : b64).

(** ** Not a number *)
Lemma nan_add_l (y : b64) : nadd NAN y = NAN. Proof. destruct y; reflexivity. Qed.
Lemma nan_add_r (x : b64) : nadd x NAN = NAN. Proof. destruct x; reflexivity. Qed.
Lemma nan_sub_l (y : b64) : nsub NAN y = NAN. Proof. destruct y; reflexivity. Qed.
Lemma nan_sub_r (x : b64) : nsub x NAN = NAN. Proof. destruct x; reflexivity. Qed.
Lemma nan_mul_l (y : b64) : nmul NAN y = NAN. Proof. destruct y; reflexivity. Qed.
Lemma nan_mul_r (x : b64) : nmul x NAN = NAN. Proof. destruct x; reflexivity. Qed.
Lemma nan_div_l (y : b64) : ndiv NAN y = NAN. Proof. destruct y; reflexivity. Qed.
Lemma nan_div_r (x : b64) : ndiv x NAN = NAN. Proof. destruct x; reflexivity. Qed.
Lemma nan_neg : nneg NAN = NAN. Proof. reflexivity. Qed.
Lemma nan_lt_l (y : b64) : nlt NAN y = false. Proof. reflexivity. Qed.
Lemma nan_lt_r (x : b64) : nlt x NAN = false. Proof. destruct x; reflexivity. Qed.
Ltac nans := repeat (rewrite ?nan_add_l, ?nan_add_r, ?nan_sub_l, ?nan_sub_r, ?nan_mul_l, ?nan_mul_r, ?nan_div_l, ?nan_div_r, ?nan_neg, ?nan_lt_l, ?nan_lt_r; cbn [v0 v1 v2 r0 r1 r2 col0 col1 col2]).

Lemma nan_clamp (lo hi : b64) : fclamp NAN lo hi = NAN. Proof. unfold fclamp. nans. reflexivity. Qed.
Lemma nan_almost (y : b64) : almost_equal NAN y = false. Proof. unfold almost_equal. nans. reflexivity. Qed.

(** ** Zeros *)
Lemma zero_add (x y : b64) : zero64 x -> zero64 y -> zero64 (nadd x y).
Proof. intros [[] ->] [[] ->]; eexists; reflexivity. Qed.
Lemma zero_div (x y : b64) : zero64 x -> zero64 y -> ndiv x y = NAN.
Proof. intros [s ->] [s' ->]. reflexivity. Qed.
Lemma zero_fold {A} (f : A -> b64) l : Forall (fun a => zero64 (f a)) l -> forall v, zero64 v -> zero64 (fold_left (fun v a => nadd v (f a)) l v).
Proof. induction 1 as [|a l H F IH]; intros v V; [exact V|]. cbn [fold_left]. apply IH, zero_add; assumption. Qed.
Lemma zero_sum l : Forall zero64 l -> zero64 (vsum l).
Proof.
  intros F. unfold vsum. apply (zero_fold (fun x => x)); [exact F|]. exists false. reflexivity.
Qed.
Lemma zero_evaluate (t : target b64) pt tr : (forall a, In a t -> zero64 (gauss_trans a pt tr)) -> zero64 (evaluate t pt tr).
Proof. intros H. unfold evaluate. apply zero_fold; [apply Forall_forall; exact H|]. exists false. reflexivity. Qed.
Lemma dark_fill (t : target b64) tr pts : (forall a pt, In a t -> In pt pts -> zero64 (gauss_trans a pt tr)) -> fill t tr pts = repeat NAN (length pts).
Proof.
  intros H. unfold fill. cbv zeta. set (vals := map _ pts). assert (F : Forall zero64 vals).
  { apply Forall_forall. intros v V. apply in_map_iff in V. destruct V as (pt & <- & P). apply zero_evaluate. intros a A. apply H; assumption. }
  pose proof (zero_sum _ F) as S. set (s := vsum vals) in *. clearbody s. replace (length pts) with (length vals) by apply map_length. clearbody vals. clear H pts.
  induction F as [|v vals V F IH]; [reflexivity|]. cbn [map repeat length]. rewrite (zero_div _ _ V S), IH. reflexivity.
Qed.

(** ** Sums with a summand that is not a number *)
Lemma nan_fold {A} (f : A -> b64) l : fold_left (fun v a => nadd v (f a)) l NAN = NAN.
Proof. induction l as [|a l IH]; [reflexivity|]. cbn [fold_left]. rewrite nan_add_l. exact IH. Qed.
Lemma nan_sum l : l <> [] -> Forall (fun x => x = NAN) l -> vsum l = NAN.
Proof. intros N F. destruct F as [|x l -> F]; [congruence|]. unfold vsum. cbn [fold_left]. rewrite nan_add_r. apply (nan_fold (fun x => x)). Qed.
Definition plus2 (acc c : list b64) : list b64 := map (fun p => nadd (fst p) (snd p)) (combine acc c).
Lemma plus2_nan_r n : forall acc, length acc = n -> plus2 acc (repeat NAN n) = repeat NAN n.
Proof.
  induction n as [|n IH]; intros [|a acc] H; cbn in H; try discriminate; [reflexivity|]. unfold plus2 in *. cbn [repeat combine map fst snd]. rewrite IH by congruence. rewrite nan_add_r. reflexivity.
Qed.
Lemma plus2_nan_l n : forall c, length c = n -> plus2 (repeat NAN n) c = repeat NAN n.
Proof.
  induction n as [|n IH]; intros [|a c] H; cbn in H; try discriminate; [reflexivity|]. unfold plus2 in *. cbn [repeat combine map fst snd]. rewrite IH by congruence. rewrite nan_add_l. reflexivity.
Qed.
Lemma row_sum_nan n cols : cols <> [] -> Forall (fun c => c = repeat NAN n) cols -> row_sum n cols = repeat NAN n.
Proof.
  intros N F. destruct F as [|c cols -> F]; [congruence|]. unfold row_sum. cbn [fold_left].
  change (map _ (combine (repeat n0 n) (repeat NAN n))) with (plus2 (repeat n0 n) (repeat NAN n)). rewrite plus2_nan_r by apply repeat_length.
  clear N. induction F as [|c cols -> F IH]; [reflexivity|]. cbn [fold_left]. change (map _ (combine (repeat NAN n) (repeat NAN n))) with (plus2 (repeat NAN n) (repeat NAN n)).
  rewrite plus2_nan_r by apply repeat_length. exact IH.
Qed.
Lemma map_repeat_nan {A} (f : A -> b64) l : (forall a, In a l -> f a = NAN) -> map f l = repeat NAN (length l).
Proof. induction l as [|a l IH]; intros H; [reflexivity|]. cbn [map length repeat]. rewrite (H a) by (left; reflexivity). rewrite IH; [reflexivity|]. intros b B. apply H. right. exact B. Qed.
Lemma in_combine_repeat {A B} (l : list A) (b : B) n p : In p (combine l (repeat b n)) -> snd p = b.
Proof. destruct p as [x y]. intros H. apply in_combine_r in H. apply repeat_spec in H. exact H. Qed.
Lemma spatial_nan (bs : basis b64) pts phik : pts <> [] -> spatialCoeff bs (repeat NAN (length pts)) pts = Ok phik -> phik = repeat NAN (length (bs_k bs)).
Proof.
  intros N. unfold spatialCoeff. destruct (_ <? _)%Z; [discriminate|]. intros [= <-]. apply row_sum_nan.
  - destruct pts as [|p pts]; [congruence|]. discriminate.
  - apply Forall_forall. intros c C. apply in_map_iff in C. destruct C as (p & <- & I). rewrite (in_combine_repeat _ _ _ _ I). rewrite map_repeat_nan.
    + unfold fourierBasis. rewrite map_length. reflexivity.
    + intros a _. apply nan_mul_r.
Qed.

(** ** The controller *)
Definition unknown (e : ec b64) : Prop := ec_phik e = Some (repeat NAN (length (bs_k (ec_basis e)))).
Definition regular (e : ec b64) : Prop := bs_k (ec_basis e) <> [] /\ length (bs_lam (ec_basis e)) = length (bs_k (ec_basis e)).
Lemma edx_nan e ck xt edx : unknown e -> regular e -> length ck = length (bs_k (ec_basis e)) -> gradErgodicMetric e ck xt = Ok edx ->
  Forall (fun d : vec3 b64 => d = V3 NAN NAN n0) edx.
Proof.
  intros U [N Lam] C. unfold gradErgodicMetric. rewrite U. intros [= <-]. set (n := length (bs_k (ec_basis e))) in *.
  assert (D : map (fun p => nmul (fst p) (nsub (fst (snd p)) (snd (snd p)))) (combine (bs_lam (ec_basis e)) (combine ck (repeat NAN n))) = repeat NAN n).
  { rewrite map_repeat_nan; [rewrite combine_length, combine_length, repeat_length, Lam, C, !Nat.min_id; reflexivity|].
    intros [a [b c]] I. apply in_combine_r in I. apply in_combine_repeat in I. cbn [fst snd] in *. subst c. rewrite nan_sub_r. apply nan_mul_r. }
  match goal with |- Forall _ (map (edx_col e ?d) xt) => replace d with (repeat NAN n) by (symmetry; exact D) end. clear D. apply Forall_forall. intros d I. apply in_map_iff in I. destruct I as (x & <- & _).
  unfold edx_col. cbv zeta. assert (G : length (gradFourierBasis (ec_basis e) (xy x)) = n) by (unfold gradFourierBasis; apply map_length).
  set (gr := gradFourierBasis _ _) in *. clearbody gr. assert (N0 : n <> O) by (unfold n; destruct (bs_k (ec_basis e)); [congruence|discriminate]). clearbody n.
  assert (Q : forall f : (b64 * b64) * b64 -> b64, (forall p, snd p = NAN -> f p = NAN) -> vsum (map f (combine gr (repeat NAN n))) = NAN).
  { intros f Hf. apply nan_sum.
    - destruct gr; [cbn in G; congruence|]. destruct n; [congruence|]. discriminate.
    - apply Forall_forall. intros v V. apply in_map_iff in V. destruct V as (p & <- & P). apply Hf, (in_combine_repeat _ _ _ _ P). }
  rewrite !Q; [nans; reflexivity| |]; intros [[a b] c] Hc; cbn [fst snd] in *; subst c; apply nan_mul_r.
Qed.
Lemma traj_coeff_length (bs : basis b64) xt : length (trajCoeff bs xt) = length (bs_k bs).
Proof.
  unfold trajCoeff. rewrite map_length. unfold row_sum. assert (H : forall cols acc, Forall (fun c => length c = length (bs_k bs)) cols -> length acc = length (bs_k bs) ->
    length (fold_left (fun acc c => map (fun p => nadd (fst p) (snd p)) (combine acc c)) cols acc) = length (bs_k bs)).
  { induction cols as [|c cols IH]; intros acc F A; [exact A|]. inversion F as [|? ? Fc Fs]; subst. cbn [fold_left]. apply IH; [exact Fs|]. rewrite map_length, combine_length. lia. }
  apply H; [|apply repeat_length]. apply Forall_forall. intros c C. apply in_map_iff in C. destruct C as (x & <- & _). unfold fourierBasis. apply map_length.
Qed.
Lemma rhodot_nan rho z dbar m : v0 (rhodot rho (V3 NAN NAN z) dbar m) = NAN /\ v1 (rhodot rho (V3 NAN NAN z) dbar m) = NAN.
Proof. unfold rhodot, vsub, vneg. cbn [v0 v1]. nans. split; reflexivity. Qed.
Lemma rhodot_nan3 rho z dbar m : v0 rho = NAN -> nan3 (rhodot rho (V3 NAN NAN z) dbar m).
Proof.
  intros H. pose proof (rhodot_nan rho z dbar m) as [A B]. assert (C : v2 (rhodot rho (V3 NAN NAN z) dbar m) = NAN).
  { unfold rhodot, vsub, mtvmul, vdot. cbn [v2]. rewrite H. nans. reflexivity. }
  unfold nan3. destruct (rhodot rho (V3 NAN NAN z) dbar m) as [a b c]. cbn [v0 v1 v2] in A, B, C. subst. reflexivity.
Qed.
Lemma back_nan (rho k : vec3 b64) dt : v0 k = NAN -> v0 (vsub rho (vscale (vscale k half) dt)) = NAN.
Proof. intros H. unfold vsub, vscale. cbn [v0]. rewrite H. nans. reflexivity. Qed.
Lemma co_step_nan dt rho dbar m : nan3 (co_step dt rhodot rho (V3 NAN NAN n0) dbar m).
Proof.
  unfold co_step. cbv zeta. set (k1 := rhodot rho _ _ _). pose proof (rhodot_nan rho n0 dbar m) as [A B]. change (v0 k1 = NAN) in A. change (v1 k1 = NAN) in B. clearbody k1.
  set (k2 := rhodot (vsub rho (vscale (vscale k1 half) dt)) _ _ _). assert (C : nan3 k2) by (apply rhodot_nan3, back_nan, A). clearbody k2. unfold nan3 in C. subst k2.
  set (k3 := rhodot _ _ _ _). clearbody k3. set (k4 := rhodot _ _ _ _). clearbody k4.
  unfold nan3, vsub, vadd, vscale. cbn [v0 v1 v2]. nans. reflexivity.
Qed.
Lemma co_loop_nan dt fdx xt ut (edx bdx : list (vec3 b64)) : Forall (fun d : vec3 b64 => d = V3 NAN NAN n0) edx -> forall i rho acc r,
  @co_loop b64 NL (vec3 b64) i dt rhodot fdx rho xt ut edx bdx acc = Ok r -> Forall nan3 acc -> Forall nan3 r /\ length r = (i + length acc)%nat.
Proof.
  intros F. induction i as [|i IH]; intros rho acc r H A; cbn [co_loop] in H; [assert (r = acc) as -> by congruence; split; [exact A|reflexivity]|].
  destruct (col_at edx _) as [d| | |] eqn:D; cbn [bind] in H; try discriminate. destruct (col_at bdx _) as [b| | |]; cbn [bind] in H; try discriminate.
  destruct (col_at xt _) as [x| | |]; cbn [bind] in H; try discriminate. destruct (col_at ut _) as [u| | |]; cbn [bind] in H; try discriminate.
  cbv zeta in H. assert (Dn : d = V3 NAN NAN n0).
  { unfold col_at, nthZ in D. destruct (_ <? _)%Z; [discriminate|]. destruct (nth_error edx _) as [d'|] eqn:E; [|discriminate]. assert (d' = d) as <- by congruence.
    exact (proj1 (Forall_forall _ _) F d' (nth_error_In _ _ E)). }
  subst d. apply IH in H; [|constructor; [apply co_step_nan|exact A]]. destruct H as [H1 H2]. split; [exact H1|]. rewrite H2. cbn [length]. lia.
Qed.
Lemma control_nan (e : ec b64) x rho : nan3 rho -> nan3 (new_control e x rho).
Proof.
  unfold nan3. intros ->. unfold new_control. cbv zeta. unfold vneg, mvmul, mtvmul, vdot. cbn [v0 v1 v2]. nans. rewrite !nan_clamp. reflexivity.
Qed.
Lemma config_regular (e e1 : ec b64) g : configTarget e g = Ok e1 -> regular e -> regular e1.
Proof. intros C R. destruct (config_kept _ _ _ C) as (_ & _ & _ & _ & _ & _ & _ & _ & _ & _ & K1 & K2). unfold regular. rewrite K1, K2. exact R. Qed.

(** A successful call with unknown coefficients plans nothing but NaN. *)
Lemma unknown_plan (e e1 e' : ec b64) g x draws u : configTarget (set_pose e x) g = Ok e1 -> unknown e1 -> regular e1 -> ec_control e g x draws = Ok (u, e') ->
  nan3 u /\ Forall nan3 (ec_ut e') /\ ec_ut e' <> [] /\ (exists k, num_steps (ec_dt e') (ec_horizon e') = Ok k /\ (0 < Z.to_nat k)%nat) /\ ec_model e' = ec_model e /\
  ec_basis e' = ec_basis e1 /\ ec_target e' = ec_target e1.
Proof.
  intros C1 U R C. destruct (control_dec _ _ _ _ _ _ C) as (e2 & tr & to & ed & rh & H). cbn zeta in H. destruct H as (C2 & _ & _ & _ & _ & _ & G & S & E & A & _).
  assert (e2 = e1) as -> by congruence. clear C2. apply (edx_nan _ _ _ _ U R) in G; [|apply traj_coeff_length].
  unfold co_solve in S. destruct (num_steps _ _) as [k| | |] eqn:K; cbn [bind] in S; try discriminate. apply (co_loop_nan _ _ _ _ _ _ G) in S; [|constructor]. destruct S as [Fr Lr].
  set (xt := skipn _ _) in *. assert (F : Forall nan3 (new_controls e1 xt rh)).
  { apply Forall_forall. intros w W. unfold new_controls in W. apply in_map_iff in W. destruct W as ([a b] & <- & I). apply in_combine_r in I. apply control_nan. exact (proj1 (Forall_forall _ _) Fr _ I). }
  assert (N : new_controls e1 xt rh <> []) by (intros E0; rewrite E0 in A; discriminate).
  subst e'. cbn [set_ut ec_ut ec_dt ec_horizon ec_model ec_basis ec_target]. split.
  { unfold col_at, nthZ in A. destruct (_ <? _)%Z; [discriminate|]. destruct (nth_error _ _) as [w|] eqn:W; [|discriminate]. assert (w = u) as <- by congruence. exact (proj1 (Forall_forall _ _) F _ (nth_error_In _ _ W)). }
  split; [exact F|]. split; [exact N|]. split; [|split; [|split; reflexivity]].
  - exists k. split; [exact K|]. destruct (Z.to_nat k); [|lia]. destruct rh; [|cbn in Lr; discriminate]. exfalso. apply N. unfold new_controls. rewrite combine_nil. reflexivity.
  - destruct (config_kept _ _ _ C1) as (M & _). exact M.
Qed.
(** The cart model refuses it. *)
Lemma cart_path_throws (e : ec b64) k : Forall nan3 (ec_ut e) -> ec_ut e <> [] -> num_steps (ec_dt e) (ec_horizon e) = Ok k -> (0 < Z.to_nat k)%nat -> ec_model e = cart_plant ->
  ec_path e = Throw EInvalidArgument.
Proof.
  intros F N K P M. unfold ec_path, optTraj, rk4_solve. rewrite K, M. cbn [bind]. destruct (Z.to_nat k) as [|j]; [lia|]. destruct F as [|u us U F]; [congruence|]. rewrite U.
  cbn [rk4_loop]. unfold rk4_step. cbn [cart_plant pl_robot simple_cart rb_f]. unfold simple_f. cbn [v1]. rewrite nan_almost. reflexivity.
Qed.
(** Nothing can be checked with it. *)
Lemma nan_unchecked c (g : grid b64) x u dt : nan3 u -> forall b, collisionCheck c g (v0 (integrate_twist x u dt)) (v1 (integrate_twist x u dt)) <> Ok b.
Proof.
  unfold nan3. intros -> b. unfold integrate_twist. cbn [v2]. rewrite nan_almost. unfold vscale, vadd, mvmul, vdot, transform2d_rot. cbn [v0 v1 v2 r0 r1 r2]. nans.
  unfold collisionCheck, mk_config, world2Grid, to_u32. nans. discriminate.
Qed.
Lemma nan_passes n g x u k : nan3 u -> val_steps n k -> passes n g x u -> k = 0%nat.
Proof.
  intros U V (k' & V' & P). assert (k' = k) as -> by (destruct V as [_ V], V' as [_ V']; rewrite V in V'; injection V' as E; lia). destruct k as [|k]; [reflexivity|]. exfalso.
  cbn [rollout] in P. cbv zeta in P. pose proof (Forall_inv P) as Q. unfold clear in Q. cbn [v0 v1] in Q. exact (nan_unchecked _ _ _ _ _ U _ Q).
Qed.
Lemma nan_hits n g x u : nan3 u -> ~ hits n g x u.
Proof.
  intros U (k & _ & E). revert x E. induction k as [|k IH]; intros x E; cbn [rollout] in E; [inversion E|]. cbv zeta in E. apply Exists_cons in E. destruct E as [Q|Q].
  - unfold crash in Q. cbn [v0 v1] in Q. exact (nan_unchecked _ _ _ _ _ U _ Q).
  - exact (IH _ Q).
Qed.

(** ** The lattice *)
Lemma Ok_inj {A} (a b : A) : Ok a = Ok b -> a = b.
Proof. congruence. Qed.
Lemma accum_tick r n : forall k x, In x (accum n (tick r k) r) -> exists i, (i < n)%nat /\ x = tick r (k + i).
Proof.
  induction n as [|n IH]; intros k x H; cbn [accum] in H; [destruct H|]. destruct H as [<-|H].
  - exists 0%nat. split; [lia|]. f_equal. lia.
  - change (nadd (tick r k) r) with (tick r (S k)) in H. apply IH in H. destruct H as (i & I & ->). exists (S i). split; [lia|]. f_equal. lia.
Qed.
Lemma points_tick nx ny r pts pt : phi_points nx ny r = Ok pts -> In pt pts -> exists i j, (Z.of_nat i < nx)%Z /\ (Z.of_nat j < ny)%Z /\ pt = node_at r i j.
Proof.
  unfold phi_points. destruct (_ <? _)%Z; [discriminate|]. intros E H. apply Ok_inj in E. subst pts. apply in_flat_map in H. destruct H as (y & Y & H). apply in_map_iff in H. destruct H as (x & <- & X).
  change (@n0 b64 NL) with (tick r 0) in X, Y. apply accum_tick in X, Y. destruct X as (i & I & ->), Y as (j & J & ->). exists i, j. split; [lia|]. split; [lia|reflexivity].
Qed.
Lemma points_some nx ny r pts : (0 < nx)%Z -> (0 < ny)%Z -> phi_points nx ny r = Ok pts -> pts <> [].
Proof.
  intros Nx Ny. unfold phi_points. destruct (_ <? _)%Z; [discriminate|]. intros [= <-]. destruct (Z.to_nat nx) as [|a] eqn:A; [lia|]. destruct (Z.to_nat ny) as [|b] eqn:B; [lia|]. discriminate.
Qed.
Lemma gaussians_in l t a : gaussians_of l = Ok t -> In a t -> exists ms, In ms l /\ gaussian_ctor (fst ms) (snd ms) = Ok a.
Proof.
  revert t. induction l as [|[mu sg] l IH]; intros t H A; cbn [gaussians_of] in H; [injection H as <-; destruct A|].
  destruct (gaussian_ctor mu sg) as [g| | |] eqn:G; cbn [bind] in H; try discriminate. destruct (gaussians_of l) as [t'| | |]; cbn [bind] in H; try discriminate. injection H as <-.
  destruct A as [<-|A]; [exists (mu, sg); split; [left; reflexivity|exact G]|]. destruct (IH _ eq_refl A) as (ms & I & E). exists ms. split; [right; exact I|exact E].
Qed.
(** Coefficients computed where the target is out of sight are not numbers. *)
Lemma dark_unknown (p : params b64) (e e1 : ec b64) g : out_of_sight L p g -> gaussians_of (pa_gaussians p) = Ok (ec_target e) -> ec_resolution e = pa_target_resolution p ->
  ~ same_extents g (bs_lx (ec_basis e), bs_ly (ec_basis e)) -> configTarget e g = Ok e1 -> unknown e1.
Proof.
  intros (nx & ny & Ax & Ay & Rx & Ry & D) G Re N. unfold configTarget. cbv zeta. unfold same_extents, extents in *. cbn [fst snd] in *. change (F64 L) with NL in *.
  destruct (almost_equal _ _ && almost_equal _ _)%bool eqn:S; [apply andb_true_iff in S; contradiction|]. rewrite Re, Ax, Ay. cbn [bind].
  assert (Ux : u32 (nx + 1) = (nx + 1)%Z) by (apply Z.mod_small; unfold two32 in *; lia). assert (Uy : u32 (ny + 1) = (ny + 1)%Z) by (apply Z.mod_small; unfold two32 in *; lia). rewrite Ux, Uy.
  destruct (phi_points _ _ _) as [pts| | |] eqn:P; cbn [bind]; try discriminate. rewrite dark_fill.
  - destruct (spatialCoeff _ _ _) as [phik| | |] eqn:C; cbn [bind]; try discriminate. intros [= <-]. unfold unknown. cbn [set_domain ec_phik ec_basis]. f_equal.
    apply (spatial_nan (mkBasis (nsub (g_xmax g) (g_xmin g)) (nsub (g_ymax g) (g_ymin g)) (bs_lam (ec_basis e)) (bs_k (ec_basis e))) pts); [|exact C].
    apply (points_some (nx + 1) (ny + 1) (pa_target_resolution p) pts ltac:(lia) ltac:(lia) P).
  - intros a pt A I. destruct (points_tick _ _ _ _ _ P I) as (i & j & Hi & Hj & ->). destruct (gaussians_in _ _ _ G A) as (ms & M & K). eapply D; [exact M|exact K|lia|lia].
Qed.

(** ** Executions *)
(** What every controller of a node has in common; its domain is that of a map of [maps], or none. *)
Record fitted (om : bool) (p : params b64) (maps : list (grid b64)) (e : ec b64) : Prop := {
  fi_target : gaussians_of (pa_gaussians p) = Ok (ec_target e);
  fi_res : ec_resolution e = pa_target_resolution p;
  fi_model : ec_model e = if om then omni_plant else cart_plant;
  fi_regular : regular e;
  fi_domain : (bs_lx (ec_basis e), bs_ly (ec_basis e)) = (n0, n0) \/ exists g, In g maps /\ (bs_lx (ec_basis e), bs_ly (ec_basis e)) = extents g }.
Lemma fitted_more om p maps maps' e : fitted om p maps e -> incl maps maps' -> fitted om p maps' e.
Proof. intros [A B C D E] I. constructor; try assumption. destruct E as [E|(g & G & E)]; [left; exact E|right; exists g; split; [apply I, G|exact E]]. Qed.
Lemma fitted_add om p maps e x : fitted om p maps e -> fitted om p maps (addStateMemory e x).
Proof. intros [A B C D E]. constructor; assumption. Qed.
Lemma config_domain (e e1 : ec b64) g : configTarget e g = Ok e1 -> ec_target e1 = ec_target e /\
  ((bs_lx (ec_basis e1), bs_ly (ec_basis e1)) = (bs_lx (ec_basis e), bs_ly (ec_basis e)) \/ (bs_lx (ec_basis e1), bs_ly (ec_basis e1)) = extents g).
Proof.
  unfold configTarget. cbv zeta. destruct (_ && _)%bool; [intros E; apply Ok_inj in E; subst e1; auto|].
  destruct (axis_length _ _ _); cbn [bind]; try discriminate. destruct (axis_length _ _ _); cbn [bind]; try discriminate.
  destruct (phi_points _ _ _); cbn [bind]; try discriminate. destruct (spatialCoeff _ _ _); cbn [bind]; try discriminate. intros E. apply Ok_inj in E. subst e1. auto.
Qed.
Lemma fitted_control om p maps (e e' : ec b64) g x draws u : fitted om p maps e -> ec_control e g x draws = Ok (u, e') -> fitted om p (g :: maps) e'.
Proof.
  intros [A B C D E] K. pose proof (control_kept _ _ _ _ _ _ K) as (M & _ & _ & R & _ & _ & _ & _ & _ & _ & K1 & K2).
  destruct (control_dec _ _ _ _ _ _ K) as (e1 & tr & to & ed & rh & H). cbn zeta in H. destruct H as (C1 & _ & _ & _ & _ & _ & _ & _ & E' & _).
  destruct (config_domain _ _ _ C1) as [Ct Cd]. assert (Eb : ec_basis e' = ec_basis e1) by (rewrite E'; reflexivity). assert (Et : ec_target e' = ec_target e1) by (rewrite E'; reflexivity).
  clear E'. constructor.
  - rewrite Et, Ct. exact A.
  - rewrite R. exact B.
  - rewrite M. exact C.
  - unfold regular. rewrite K1, K2. exact D.
  - rewrite Eb. destruct Cd as [Cd|Cd]; [|right; exists g; split; [left; reflexivity|exact Cd]]. cbn [set_pose ec_basis] in Cd. rewrite Cd.
    destruct E as [E|(g' & G & E)]; [left; exact E|right; exists g'; split; [right; exact G|exact E]].
Qed.
(** A plan for a target out of sight on a map with new extents. *)
Lemma dark_control om p maps (e e' : ec b64) g x draws u : fitted om p maps e -> ~ same_extents g (n0, n0) -> (forall g', In g' maps -> ~ same_extents g (extents g')) ->
  out_of_sight L p g -> ec_control e g x draws = Ok (u, e') -> nan3 u /\ Forall nan3 (ec_ut e') /\ (om = false -> ec_path e' = Throw EInvalidArgument).
Proof.
  intros [A B C D E] N0 N O K. destruct (control_dec _ _ _ _ _ _ K) as (e1 & tr & to & ed & rh & H). cbn zeta in H. destruct H as (C1 & _). 
  assert (Un : unknown e1).
  { apply (dark_unknown p (set_pose e x) e1 g O A B); [|exact C1]. cbn [set_pose ec_basis].
    destruct E as [E|(g' & G & E)]; rewrite E; [exact N0|apply N, G]. }
  assert (Re : regular e1) by (eapply config_regular; [exact C1|exact D]).
  destruct (unknown_plan _ _ _ _ _ _ _ C1 Un Re K) as (U & F & Ne & (k & S & P) & M & _). split; [exact U|]. split; [exact F|]. intros ->. apply (cart_path_throws _ k); try assumption.
  rewrite M. exact C.
Qed.
Definition maps_planned (evs : list (event b64)) (maps : list (grid b64)) : Prop := forall g, In g maps -> exists e, In e evs /\ planned e /\ ev_map e = g.
Lemma fitted_step om p n s e s' maps : iteration n s e s' -> fitted om p maps (lp_ec (ev_pre e)) ->
  exists maps', fitted om p maps' (lp_ec (ev_post e)) /\ (forall g, In g maps' -> In g maps \/ (planned e /\ g = ev_map e)).
Proof.
  intros It F. assert (Fx : fitted om p maps (lp_ec (stage_lookup (ev_pre e) (ev_lookup e)))) by (destruct (ev_lookup e); [apply fitted_add|]; exact F).
  apply iteration_body, body_inv in It. cbv zeta in It. change (se_lookup (ev_seen e)) with (ev_lookup e) in It.
  destruct It as [(_ & -> & Eo)|(_ & ec & u & o1 & o2 & P & C & Eo)]; [exists maps; split; [exact Fx|auto]|].
  assert (Ec : lp_ec (ev_post e) = ec) by (destruct C; reflexivity). rewrite Ec. destruct P as [P|u ec p0 P K Q]; [exists maps; split; [exact Fx|auto]|].
  exists (ev_map e :: maps). split; [exact (fitted_control _ _ _ _ _ _ _ _ _ Fx K)|]. intros g [<-|G]; [right|left; exact G]. split; [|reflexivity].
  exists p0. rewrite Eo. left. reflexivity.
Qed.
Lemma dark_step om p n s e s' maps : iteration n s e s' -> fitted om p maps (lp_ec (ev_pre e)) -> planned e -> ~ same_extents (ev_map e) (n0, n0) ->
  (forall g', In g' maps -> ~ same_extents (ev_map e) (extents g')) -> out_of_sight L p (ev_map e) ->
  om = true /\ Forall nan3 (ec_ut (lp_ec (ev_post e))) /\ exists u, nan3 u /\ In (Cmd u) (ev_out e) /\ forall k, val_steps n k -> k = 0%nat.
Proof.
  intros It F (tr & Pl) N0 N O. assert (Fx : fitted om p maps (lp_ec (stage_lookup (ev_pre e) (ev_lookup e)))) by (destruct (ev_lookup e); [apply fitted_add|]; exact F).
  apply iteration_body, body_inv in It. cbv zeta in It. change (se_lookup (ev_seen e)) with (ev_lookup e) in It.
  destruct It as [(_ & _ & Eo)|(_ & ec & u & o1 & o2 & P & C & Eo)]; [rewrite Eo in Pl; destruct Pl|].
  assert (Ec : lp_ec (ev_post e) = ec) by (destruct C; reflexivity). destruct P as [P|u ec p0 P K Q].
  - exfalso. rewrite Eo in Pl. cbn [app] in Pl. apply in_app_or in Pl. destruct Pl as [Pl|[Pl|[]]]; [|discriminate]. destruct C as [C|b v C|r v q C|r v C]; cbn [In] in Pl; intuition discriminate.
  - destruct (dark_control _ _ _ _ _ _ _ _ _ Fx N0 N O K) as (U & Fu & Th). rewrite Ec. split; [destruct om; [reflexivity|]; rewrite (Th eq_refl) in Q; discriminate|]. split; [exact Fu|].
    exists u. split; [exact U|]. remember (ev_post e) as l' eqn:El. destruct C as [C|b v C|r v q C|r v C]; try (exfalso; exact (nan_hits _ _ _ _ U C)).
    split; [rewrite Eo; right; left; reflexivity|]. intros k V. exact (nan_passes _ _ _ _ _ U V C).
Qed.
Lemma dark_exec om p n s l evs s' l' : exec n s l evs s' l' -> forall before maps, fitted om p maps (lp_ec l) -> maps_planned before maps ->
  forall j e, nth_error evs j = Some e -> planned e -> new_extents (before ++ firstn j evs) e -> out_of_sight L p (ev_map e) ->
  om = true /\ Forall nan3 (ec_ut (lp_ec (ev_post e))) /\ exists u, nan3 u /\ In (Cmd u) (ev_out e) /\ forall k, val_steps n k -> k = 0%nat.
Proof.
  induction 1 as [s l|s l e s1 evs s' l' I P X IH]; intros before maps F M j e0 J Pl [N0 N] O; [destruct j; discriminate|]. subst l. destruct j as [|j]; cbn [nth_error firstn] in *.
  - assert (e = e0) as <- by congruence. eapply dark_step; [exact I|exact F|exact Pl|exact N0| |exact O]. intros g G. destruct (M g G) as (e' & I' & P' & <-). apply N; [apply in_or_app; left; exact I'|exact P'].
  - destruct (fitted_step _ _ _ _ _ _ _ I F) as (maps' & F' & M'). apply (IH (before ++ [e]) maps' F') with (j := j); try assumption.
    + intros g G. destruct (M' g G) as [G'|[Pe ->]].
      * destruct (M g G') as (e' & I' & Q). exists e'. split; [apply in_or_app; left; exact I'|exact Q].
      * exists e. split; [apply in_or_app; right; left; reflexivity|]. split; [exact Pe|reflexivity].
    + split; [exact N0|]. intros e' I'. apply N. rewrite <- app_assoc in I'. exact I'.
Qed.
(** The nodes start like this. *)
Lemma basis_regular (nb : Z) (bs : basis b64) : (1 <= nb)%Z -> basis_ctor n0 n0 nb = Ok bs -> bs_k bs <> [] /\ length (bs_lam bs) = length (bs_k bs) /\ (bs_lx bs, bs_ly bs) = (n0, n0).
Proof.
  intros N. unfold basis_ctor. destruct (_ <? _)%Z; [|destruct (_ && _)%bool; discriminate]. intros E. apply Ok_inj in E. subst bs. cbn [bs_k bs_lam bs_lx bs_ly]. split; [|split; [apply map_length|reflexivity]].
  destruct (Z.to_nat nb) as [|k] eqn:K; [lia|]. unfold basis_numbers. cbn [zseq]. discriminate.
Qed.
Lemma start_fitted om p model Ri lo hi a b d vy n l : model = (if om : bool then omni_plant else cart_plant) -> (1 <= pa_num_basis p)%Z ->
  start model Ri lo hi a b d vy p = Ok (Some (n, l)) -> fitted om p [] (lp_ec l).
Proof.
  intros Mo Nb H. unfold start in H. destruct (gaussians_of _) as [gs| | |] eqn:G; cbn [bind] in H; try discriminate. destruct (collision_ctor _ _ _ _) as [c| | |]; cbn [bind] in H; try discriminate.
  destruct (ec_ctor _ _ _ _ _ _ _ _ _ _ _) as [e0| | |] eqn:E; cbn [bind] in H; try discriminate.
  destruct (dwa_ctor _ _ _ _ _ _ _ _ _ _ _ _ _ _ _ _) as [dw| | |]; cbn [bind] in H; try discriminate. destruct (nlt _ _); [discriminate|].
  apply Ok_inj in H. assert (l = loop_init e0 gs) as -> by congruence. clear H. cbn [loop_init lp_ec].
  unfold ec_ctor in E. destruct (num_steps _ _) as [st| | |]; cbn [bind] in E; try discriminate. destruct (basis_ctor _ _ _) as [bs| | |] eqn:Bs; cbn [bind] in E; try discriminate.
  destruct (_ =? _)%Z; [discriminate|]. apply Ok_inj in E. subst e0. destruct (basis_regular _ _ Nb Bs) as (B1 & B2 & B3).
  constructor; cbn [setTarget set_target ec_target ec_resolution ec_model ec_basis]; [exact G|reflexivity|exact Mo|split; [exact B1|exact B2]|left; exact B3].
Qed.
Lemma node_fitted (om : bool) (p : params b64) n l : (1 <= pa_num_basis p)%Z -> (if om then omni_node p else cart_node p) = Ok (Some (n, l)) -> fitted om p [] (lp_ec l).
Proof.
  intros Nb H. destruct om; unfold omni_node, cart_node in H.
  - destruct (weight_at p 0); cbn [bind] in H; try discriminate. destruct (weight_at p 1); cbn [bind] in H; try discriminate. destruct (weight_at p 2); cbn [bind] in H; try discriminate.
    eapply start_fitted; [|exact Nb|exact H]. reflexivity.
  - destruct (weight_at p 0); cbn [bind] in H; try discriminate. destruct (weight_at p 1); cbn [bind] in H; try discriminate. eapply start_fitted; [|exact Nb|exact H]. reflexivity.
Qed.
Lemma c90_dark (om : bool) (p : params b64) n l0 evs s l j e : (1 <= pa_num_basis p)%Z -> (if om then omni_node p else cart_node p) = Ok (Some (n, l0)) ->
  exec n shared_init l0 evs s l -> nth_error evs j = Some e -> planned e -> new_extents (firstn j evs) e -> out_of_sight L p (ev_map e) ->
  om = true /\ Forall nan3 (ec_ut (lp_ec (ev_post e))) /\ exists u, nan3 u /\ In (Cmd u) (ev_out e) /\ forall k, val_steps n k -> k = 0%nat.
Proof.
  intros Nb Nd X J Pl Ne O. eapply (dark_exec _ _ _ _ _ _ _ _ X [] [] (node_fitted _ _ _ _ Nb Nd)); [intros g []|exact J|exact Pl|exact Ne|exact O].
Qed.
(** If no map planned on shows the target, nothing is ever published. *)
Lemma first_planned evs : (exists e, In e evs /\ @planned b64 e) -> exists j e, nth_error evs j = Some e /\ planned e /\ forall e', In e' (firstn j evs) -> ~ planned e'.
Proof.
  induction evs as [|a evs IH]; intros (e & I & P); [destruct I|].
  assert (D : planned a \/ ~ planned a).
  { unfold planned. induction (ev_out a) as [|o out IHo]; [right; intros (q & [])|]. destruct IHo as [(q & Q)|Q]; [left; exists q; right; exact Q|].
    destruct o as [v|q|q]; [right|left; exists q; left; reflexivity|right]; intros (q' & [E|E]); try discriminate; apply Q; exists q'; exact E. }
  destruct D as [D|D]; [exists 0%nat, a; split; [reflexivity|]; split; [exact D|intros e' []]|].
  destruct I as [->|I]; [contradiction|]. destruct IH as (j & e1 & J & P1 & H); [exists e; split; assumption|]. exists (S j), e1. split; [exact J|]. split; [exact P1|].
  intros e' [<-|I']; [exact D|apply H, I'].
Qed.
Lemma c90_never (om : bool) (p : params b64) n l0 evs s l : (1 <= pa_num_basis p)%Z -> (if om then omni_node p else cart_node p) = Ok (Some (n, l0)) ->
  (om = true -> exists k, val_steps n (S k)) -> exec n shared_init l0 evs s l ->
  (forall e, In e evs -> planned e -> ~ same_extents (ev_map e) (n0, n0) /\ out_of_sight L p (ev_map e)) -> forall e, In e evs -> ~ planned e.
Proof.
  intros Nb Nd V X D e I P. destruct (first_planned evs (ex_intro _ e (conj I P))) as (j & e1 & J & P1 & H). destruct (D e1 (nth_error_In _ _ J) P1) as [N0 O].
  destruct (c90_dark _ _ _ _ _ _ _ _ _ Nb Nd X J P1 (conj N0 (fun e' I' Q => False_ind _ (H e' I' Q))) O) as (Om & _ & u & _ & _ & K).
  destruct (V Om) as (k & Vk). specialize (K _ Vk). discriminate.
Qed.
Lemma silent_run n s l evs s' l' : exec n s l evs s' l' -> lp_follow l = false -> (forall e, In e evs -> ~ planned e) -> forall e, In e evs -> ev_out e = [].
Proof.
  induction 1 as [s l|s l e s1 evs s' l' I P X IH]; intros F N e0; [intros []|]. subst l. assert (Np : ~ planned e) by (apply N; left; reflexivity).
  assert (Fx : lp_follow (stage_lookup (ev_pre e) (ev_lookup e)) = false) by (destruct (ev_lookup e); exact F).
  apply iteration_body, body_inv in I. cbv zeta in I. change (se_lookup (ev_seen e)) with (ev_lookup e) in I.
  destruct I as [(_ & Po & Eo)|(_ & ec & u & o1 & o2 & Pl & C & Eo)].
  - intros [<-|J]; [exact Eo|]. apply IH; [rewrite Po; exact Fx|intros e' I'; apply N; right; exact I'|exact J].
  - exfalso. destruct Pl as [Pl|u ec p0 Pl K Q]; [unfold still in Pl; rewrite Fx in Pl; discriminate|]. apply Np. exists p0. rewrite Eo. left. reflexivity.
Qed.
Lemma c90_silent (om : bool) (p : params b64) n l0 evs s l : (1 <= pa_num_basis p)%Z -> (if om then omni_node p else cart_node p) = Ok (Some (n, l0)) ->
  (om = true -> exists k, val_steps n (S k)) -> exec n shared_init l0 evs s l ->
  (forall e, In e evs -> planned e -> ~ same_extents (ev_map e) (n0, n0) /\ out_of_sight L p (ev_map e)) -> forall e, In e evs -> ev_out e = [].
Proof.
  intros Nb Nd V X D. apply (silent_run _ _ _ _ _ _ X); [|exact (c90_never _ _ _ _ _ _ _ Nb Nd V X D)]. destruct (node_threshold _ _ _ _ Nd) as (_ & ec0 & t & ->). reflexivity.
Qed.
End Lib.
