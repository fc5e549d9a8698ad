(** Proofs about the parameters of the nodes. *)
From Coq Require Import Reals Lra ZArith Lia List Bool String.
From Flocq Require Import Core.Core IEEE754.BinarySingleNaN.
From Verif Require Import Outcome Num Float64 FloatLemmas GridModel CollisionModel NumericsModel BasisModel ErgodicModel ExplorationModel ParamModel SpecParams NumericsProofs RobotProofs.
Import ListNotations.
Local Open Scope string_scope.
Local Open Scope list_scope.

Section Any.
Context {T : Type} {NT : Num T}.
Lemma fill_doubles (w : list T) : forall vec, List.length vec = List.length w -> fill vec (map XDouble w) = w.
Proof. induction w as [|x w IH]; intros [|v vec] E; try discriminate; cbn; [reflexivity|]. f_equal. apply IH. cbn in E. lia. Qed.
Lemma resize_length n (vec : list T) : List.length (resize n vec) = n.
Proof. unfold resize. rewrite app_length, firstn_length, repeat_length. lia. Qed.

(** A list of targets, as it is read. *)
Lemma pair_at pre (p : T * T) post i : i = List.length pre -> xml_pair (XArray (pre ++ pair_entry p :: post)) i = Ok p.
Proof.
  intros ->. unfold xml_pair, xml_at. rewrite app_nth2, Nat.sub_diag by lia. cbn. destruct p; reflexivity.
Qed.
Lemma read_prefix l : forall preM preS M S i k, i = List.length preM -> i = List.length preS ->
  read_targets (XArray (preM ++ rows fst l ++ M)) (XArray (preS ++ rows snd l ++ S)) i (List.length l + k) =
  let* _ := gaussians_of l in let* r := read_targets (XArray (preM ++ rows fst l ++ M)) (XArray (preS ++ rows snd l ++ S)) (i + List.length l) k in Ok (l ++ r).
Proof.
  induction l as [|[mu sg] l IH]; intros preM preS M S i k EM ES.
  - cbn [List.length Nat.add gaussians_of bind app]. rewrite Nat.add_0_r. destruct (read_targets _ _ _ _); reflexivity.
  - cbn [List.length Nat.add read_targets rows map app fst snd]. fold (rows fst l) (rows snd l).
    rewrite pair_at by exact EM. cbn [bind]. rewrite pair_at by exact ES. cbn [bind gaussians_of].
    destruct (gaussian_ctor mu sg) as [g| | |]; cbn [bind]; try reflexivity.
    replace (preM ++ pair_entry mu :: rows fst l ++ M) with ((preM ++ [pair_entry mu]) ++ rows fst l ++ M) by (rewrite <- app_assoc; reflexivity).
    replace (preS ++ pair_entry sg :: rows snd l ++ S) with ((preS ++ [pair_entry sg]) ++ rows snd l ++ S) by (rewrite <- app_assoc; reflexivity).
    rewrite IH by (rewrite app_length; cbn; lia). replace (i + Datatypes.S (List.length l))%nat with (Datatypes.S i + List.length l)%nat by lia.
    destruct (gaussians_of l) as [t| | |]; cbn [bind]; try reflexivity. destruct (read_targets _ _ _ _); reflexivity.
Qed.
Lemma read_all l : read_targets (XArray (rows fst l)) (XArray (rows snd l)) 0 (List.length l) = let* _ := gaussians_of l in Ok l.
Proof.
  pose proof (read_prefix l [] [] [] [] 0%nat 0%nat eq_refl eq_refl) as H. cbn [app] in H. rewrite !app_nil_r, Nat.add_0_r in H. rewrite H.
  destruct (gaussians_of l); cbn [bind read_targets]; rewrite ?app_nil_r; reflexivity.
Qed.
Lemma rows_length (f : ((T * T) * (T * T)) -> T * T) l : List.length (rows f l) = List.length l.
Proof. unfold rows. rewrite !map_length. reflexivity. Qed.
Lemma params_eta (p : params T) : p = mkParams (pa_val_dt p) (pa_val_horizon p) (pa_max_vel_x p) (pa_max_vel_y p) (pa_max_rot_vel p)
    (pa_min_vel_x p) (pa_min_vel_y p) (pa_min_rot_vel p) (pa_acc_lim_x p) (pa_acc_lim_y p) (pa_acc_lim_th p)
    (pa_boundary_radius p) (pa_search_radius p) (pa_obstacle_threshold p) (pa_occupied_threshold p)
    (pa_ec_dt p) (pa_ec_horizon p) (pa_target_resolution p) (pa_expl_weight p)
    (pa_num_basis p) (pa_buffer_size p) (pa_batch_size p) (pa_weights p)
    (pa_dwa_dt p) (pa_dwa_horizon p) (pa_acc_dt p) (pa_vx_samples p) (pa_vy_samples p) (pa_vth_samples p) (pa_gaussians p).
Proof. destruct p; reflexivity. Qed.

(** ** All parameters given *)
Lemma weights_few (p : params T) (om : bool) : (List.length (pa_weights p) <? (if om then 3 else 2))%nat = true -> node_with om p = Throw EOutOfRange.
Proof.
  intros H. unfold node_with, omni_node, cart_node, weight_at. destruct om, (pa_weights p) as [|a [|b [|c l]]]; try discriminate; reflexivity.
Qed.
Lemma targets_fail (p : params T) (om : bool) : (List.length (pa_weights p) <? (if om then 3 else 2))%nat = false ->
  node_with om p = let* _ := gaussians_of (pa_gaussians p) in node_with om p.
Proof.
  intros H. unfold node_with, omni_node, cart_node, weight_at, start. destruct om, (pa_weights p) as [|a [|b [|c l]]]; try discriminate; cbn [nth_error bind];
    destruct (gaussians_of _); reflexivity.
Qed.
Definition weights0 (om : bool) : list T := if om then [n1; n1; n1] else [n1; n1].
Lemma main_read om s : main_of om s = let* p := read_params s (weights0 om) (rows_of om) om in node_with om p.
Proof. destruct om; reflexivity. Qed.
Lemma c85_given om (p : params T) : to_u32 (nofZ (pa_buffer_size p)) = Ok (pa_buffer_size p) ->
  main_of om (entries (entries_of p)) = node_with om (wrapped p).
Proof.
  intros B. rewrite main_read. unfold read_params.
  change (get_uint (entries (entries_of p)) "num_basis" 10) with (Ok (u32 (pa_num_basis p))). cbn [bind].
  change (get_double (entries (entries_of p)) "buffer_size" (nofZ 1000000)) with (nofZ (pa_buffer_size p)). rewrite B. cbn [bind].
  change (get_uint (entries (entries_of p)) "batch_size" 100) with (Ok (u32 (pa_batch_size p))). cbn [bind].
  change (get_vector (entries (entries_of p)) "control_weights" (weights0 om)) with (fill (resize (List.length (map XDouble (pa_weights p))) (weights0 om)) (map XDouble (pa_weights p))).
  rewrite fill_doubles by (rewrite resize_length; apply map_length).
  destruct (_ <? _)%nat eqn:Q; [symmetry; apply weights_few; exact Q|].
  change (get_uint (entries (entries_of p)) "vx_samples" 3) with (Ok (u32 (pa_vx_samples p))). cbn [bind].
  change (get_uint (entries (entries_of p)) "vy_samples" 8) with (Ok (u32 (pa_vy_samples p))).
  change (get_uint (entries (entries_of p)) "vth_samples" 5) with (Ok (u32 (pa_vth_samples p))).
  change (get_xml (entries (entries_of p)) "means") with (XArray (rows fst (pa_gaussians p))).
  change (get_xml (entries (entries_of p)) "sigmas") with (XArray (rows snd (pa_gaussians p))).
  cbn [xml_size]. rewrite rows_length.
  rewrite (targets_fail (wrapped p) om Q). change (pa_gaussians (wrapped p)) with (pa_gaussians p).
  destruct om; cbn [bind]; rewrite read_all; (destruct (gaussians_of (pa_gaussians p)) as [t| | |]; cbn [bind]; [|reflexivity..]); reflexivity.
Qed.
Lemma c85_defaults om gs : to_u32 (@nofZ T NT 1000000) = Ok 1000000%Z ->
  main_of om (entries (targets_entries gs)) = node_with om (defaults om gs).
Proof.
  intros B. rewrite main_read. unfold read_params.
  change (get_uint (entries (targets_entries gs)) "num_basis" 10) with (Ok 10%Z). cbn [bind].
  change (get_double (entries (targets_entries gs)) "buffer_size" (nofZ 1000000)) with (@nofZ T NT 1000000). rewrite B. cbn [bind].
  change (get_uint (entries (targets_entries gs)) "batch_size" 100) with (Ok 100%Z). cbn [bind].
  change (get_vector (entries (targets_entries gs)) "control_weights" (weights0 om)) with (weights0 om).
  replace (List.length (weights0 om) <? rows_of om)%nat with false by (destruct om; reflexivity).
  change (get_uint (entries (targets_entries gs)) "vx_samples" 3) with (Ok 3%Z). cbn [bind].
  change (get_uint (entries (targets_entries gs)) "vy_samples" 8) with (Ok 8%Z).
  change (get_uint (entries (targets_entries gs)) "vth_samples" 5) with (Ok 5%Z).
  change (get_xml (entries (targets_entries gs)) "means") with (XArray (rows fst gs)).
  change (get_xml (entries (targets_entries gs)) "sigmas") with (XArray (rows snd gs)).
  cbn [xml_size]. rewrite rows_length.
  assert (Q : (List.length (pa_weights (defaults om gs)) <? (if om then 3 else 2))%nat = false) by (destruct om; reflexivity).
  rewrite (targets_fail (defaults om gs) om Q). change (pa_gaussians (defaults om gs)) with gs.
  destruct om; cbn [bind]; rewrite read_all; (destruct (gaussians_of gs) as [t| | |]; cbn [bind]; [|reflexivity..]); reflexivity.
Qed.

(** ** Targets that cannot be read *)
Lemma main_targets om (p : params T) M S e : to_u32 (nofZ (pa_buffer_size p)) = Ok (pa_buffer_size p) ->
  (rows_of om <= List.length (pa_weights p))%nat -> (let* k := xml_size M in read_targets M S 0 k) = e -> is_ok e = false ->
  main_of om (with_targets M S p) = let* _ := e in Diverge.
Proof.
  intros B Q E N. rewrite main_read. unfold read_params.
  change (get_uint (with_targets M S p) "num_basis" 10) with (Ok (u32 (pa_num_basis p))). cbn [bind].
  change (get_double (with_targets M S p) "buffer_size" (nofZ 1000000)) with (nofZ (pa_buffer_size p)). rewrite B. cbn [bind].
  change (get_uint (with_targets M S p) "batch_size" 100) with (Ok (u32 (pa_batch_size p))). cbn [bind].
  change (get_vector (with_targets M S p) "control_weights" (weights0 om)) with (fill (resize (List.length (map XDouble (pa_weights p))) (weights0 om)) (map XDouble (pa_weights p))).
  rewrite fill_doubles by (rewrite resize_length; apply map_length). rewrite (proj2 (Nat.ltb_ge _ _) Q).
  change (get_uint (with_targets M S p) "vx_samples" 3) with (Ok (u32 (pa_vx_samples p))). cbn [bind].
  change (get_uint (with_targets M S p) "vy_samples" 8) with (Ok (u32 (pa_vy_samples p))).
  change (get_uint (with_targets M S p) "vth_samples" 5) with (Ok (u32 (pa_vth_samples p))).
  change (get_xml (with_targets M S p) "means") with M. change (get_xml (with_targets M S p) "sigmas") with S.
  destruct om; cbn [bind]; (destruct (xml_size M) as [k| | |]; cbn [bind] in *; [rewrite E|subst e; reflexivity..]; destruct e; try discriminate; reflexivity).
Qed.
(** The first target that is not well formed, after [l]. *)
Lemma xml_pair_at pre x (post : list (xml T)) i : i = List.length pre -> xml_pair (XArray (pre ++ x :: post)) i =
  (let* a := xml_at x 0 in let* a := xml_double a in let* b := xml_at x 1 in let* b := xml_double b in Ok (a, b)).
Proof. intros ->. unfold xml_pair. cbn [xml_at]. rewrite app_nth2, Nat.sub_diag by lia. reflexivity. Qed.
Lemma xml_pair_end (pre : list (xml T)) i : i = List.length pre -> xml_pair (XArray pre) i = UB UUninit.
Proof. intros ->. unfold xml_pair. cbn [xml_at]. rewrite nth_overflow by lia. reflexivity. Qed.
Lemma integer_pair_throws pre (x : xml T) post i : integer_pair x -> i = List.length pre -> xml_pair (XArray (pre ++ x :: post)) i = Throw EXmlRpc.
Proof. intros [(z & l & ->)|(a & z & l & ->)] E; rewrite xml_pair_at by exact E; reflexivity. Qed.
Lemma read_bad l t preS (x : xml T) M S k : gaussians_of l = Ok t -> preS = rows snd l ++ S ->
  read_targets (XArray (rows fst l ++ x :: M)) (XArray preS) 0 (List.length l + Datatypes.S k) =
  (let* mu := xml_pair (XArray (rows fst l ++ x :: M)) (List.length l) in
   let* sigma := xml_pair (XArray preS) (List.length l) in
   let* _ := gaussian_ctor mu sigma in
   let* r := read_targets (XArray (rows fst l ++ x :: M)) (XArray preS) (Datatypes.S (List.length l)) k in Ok (l ++ (mu, sigma) :: r)).
Proof.
  intros G ->. pose proof (read_prefix l [] [] (x :: M) S 0%nat (Datatypes.S k) eq_refl eq_refl) as H. cbn [app] in H. rewrite H, G. clear H.
  cbn [bind Nat.add read_targets]. destruct (xml_pair _ _) as [mu| | |]; cbn [bind]; try reflexivity. destruct (xml_pair _ _) as [sg| | |]; cbn [bind]; try reflexivity.
  destruct (gaussian_ctor _ _); cbn [bind]; try reflexivity. destruct (read_targets _ _ _ _); reflexivity.
Qed.
Lemma size_bad l (x : xml T) M : xml_size (XArray (rows fst l ++ x :: M)) = Ok (List.length l + Datatypes.S (List.length M))%nat.
Proof. cbn [xml_size]. rewrite app_length, rows_length. reflexivity. Qed.
Lemma c85_integer_means om (p : params T) l t x M S : to_u32 (nofZ (pa_buffer_size p)) = Ok (pa_buffer_size p) ->
  (rows_of om <= List.length (pa_weights p))%nat -> gaussians_of l = Ok t -> integer_pair x ->
  main_of om (with_targets (XArray (rows fst l ++ x :: M)) (XArray (rows snd l ++ S)) p) = Throw EXmlRpc.
Proof.
  intros B Q G X. erewrite main_targets; [| exact B|exact Q|reflexivity|].
  - rewrite size_bad. cbn [bind]. rewrite (read_bad l t _ x M S _ G eq_refl), integer_pair_throws; [reflexivity|exact X|symmetry; apply rows_length].
  - rewrite size_bad. cbn [bind]. rewrite (read_bad l t _ x M S _ G eq_refl), integer_pair_throws; [reflexivity|exact X|symmetry; apply rows_length].
Qed.
Lemma c85_integer_sigmas om (p : params T) l t mu x M S : to_u32 (nofZ (pa_buffer_size p)) = Ok (pa_buffer_size p) ->
  (rows_of om <= List.length (pa_weights p))%nat -> gaussians_of l = Ok t -> integer_pair x ->
  main_of om (with_targets (XArray (rows fst l ++ pair_entry mu :: M)) (XArray (rows snd l ++ x :: S)) p) = Throw EXmlRpc.
Proof.
  intros B Q G X. erewrite main_targets; [| exact B|exact Q|reflexivity|];
    rewrite size_bad; cbn [bind]; rewrite (read_bad l t _ (pair_entry mu) M (x :: S) _ G eq_refl), pair_at by (symmetry; apply rows_length); cbn [bind];
    rewrite integer_pair_throws; [reflexivity|exact X|symmetry; apply rows_length|reflexivity|exact X|symmetry; apply rows_length].
Qed.
Lemma c85_short_sigmas om (p : params T) l t mu M : to_u32 (nofZ (pa_buffer_size p)) = Ok (pa_buffer_size p) ->
  (rows_of om <= List.length (pa_weights p))%nat -> gaussians_of l = Ok t ->
  main_of om (with_targets (XArray (rows fst l ++ pair_entry mu :: M)) (XArray (rows snd l)) p) = UB UUninit.
Proof.
  intros B Q G. erewrite main_targets; [| exact B|exact Q|reflexivity|];
    rewrite size_bad; cbn [bind]; rewrite (read_bad l t _ (pair_entry mu) M [] _ G (eq_sym (app_nil_r _))), pair_at by (symmetry; apply rows_length); cbn [bind];
    rewrite xml_pair_end by (symmetry; apply rows_length); reflexivity.
Qed.
Lemma c85_no_means om (p : params T) S : to_u32 (nofZ (pa_buffer_size p)) = Ok (pa_buffer_size p) ->
  (rows_of om <= List.length (pa_weights p))%nat -> main_of om (entries (("sigmas", S) :: numbers_of p)) = Throw EXmlRpc.
Proof.
  intros B Q. rewrite main_read. unfold read_params. set (s := entries (("sigmas", S) :: numbers_of p)).
  change (get_uint s "num_basis" 10) with (Ok (u32 (pa_num_basis p))). cbn [bind].
  change (get_double s "buffer_size" (nofZ 1000000)) with (nofZ (pa_buffer_size p)). rewrite B. cbn [bind].
  change (get_uint s "batch_size" 100) with (Ok (u32 (pa_batch_size p))). cbn [bind].
  change (get_vector s "control_weights" (weights0 om)) with (fill (resize (List.length (map XDouble (pa_weights p))) (weights0 om)) (map XDouble (pa_weights p))).
  rewrite fill_doubles by (rewrite resize_length; apply map_length). rewrite (proj2 (Nat.ltb_ge _ _) Q). destruct om; reflexivity.
Qed.
End Any.

(** ** Numbers *)
Local Open Scope R_scope.
Lemma to_u32_IZR z : (0 <= z < two32)%Z -> to_u32 (IZR z) = Ok z.
Proof. intros H. unfold to_u32. cbn [ntrunc RNum]. rewrite Ztrunc_IZR. destruct (Z.leb_spec 0 z), (Z.ltb_spec z two32); try lia. reflexivity. Qed.
Lemma to_int_IZR z : (- two31 <= z < two31)%Z -> to_int (IZR z) = Ok z.
Proof. intros H. unfold to_int. cbn [ntrunc RNum]. rewrite Ztrunc_IZR. destruct (Z.leb_spec (- two31) z), (Z.ltb_spec z two31); try lia. reflexivity. Qed.
Lemma int_of_R d : int_of_double d = to_int (IZR (if Rlt_dec (d - IZR (Ztrunc d)) (1 / 2) then Zfloor d else Zceil d)).
Proof.
  unfold int_of_double. cbn [ntrunc RNum]. f_equal. rrn. destruct (Rlt_dec _ _) as [H|H].
  - rewrite (proj2 (Rltb_true _ _)); [reflexivity|]. lra.
  - rewrite (proj2 (Rltb_false _ _)); [unfold Zceil; rewrite opp_IZR; reflexivity|]. lra.
Qed.
Lemma int_of_IZR z : (- two31 <= z < two31)%Z -> int_of_double (IZR z) = Ok z.
Proof. intros H. rewrite int_of_R, Ztrunc_IZR, Zfloor_IZR, Zceil_IZR. destruct (Rlt_dec _ _); apply to_int_IZR, H. Qed.
(** Nearest for positive values, the next below for negative ones. *)
Lemma c85_rounding (s : server R) name dflt d : s name = Some (XDouble d) -> - IZR two31 <= d <= IZR two31 - 1 ->
  get_int s name dflt = Ok (if Rle_dec 0 d then Zfloor (d + 1 / 2) else Zfloor d).
Proof.
  intros E H. unfold get_int. rewrite E, int_of_R. pose proof (Zfloor_lb d) as F1. pose proof (Zfloor_ub d) as F2. pose proof (Zceil_lb d) as C1. pose proof (Zceil_ub d) as C2.
  assert (A : (- two31 <= Zfloor d < two31)%Z).
  { split; [apply Zfloor_lub; rewrite opp_IZR; lra|]. apply lt_IZR. lra. }
  assert (B : (- two31 <= Zceil d < two31)%Z).
  { split; [apply le_IZR; rewrite opp_IZR; lra|]. apply lt_IZR. lra. }
  destruct (Rle_dec 0 d) as [P|P].
  - rewrite Ztrunc_floor by exact P. destruct (Rlt_dec _ _) as [L|L].
    + rewrite to_int_IZR by exact A. f_equal. symmetry. apply Zfloor_imp. rewrite plus_IZR. lra.
    + rewrite to_int_IZR by exact B. f_equal. destruct (Req_dec (IZR (Zfloor d)) d) as [Q|Q]; [exfalso; lra|].
      rewrite (Zceil_floor_neq d Q). symmetry. apply Zfloor_imp. rewrite !plus_IZR. lra.
  - assert (L : d - IZR (Ztrunc d) < 1 / 2) by (rewrite Ztrunc_ceil by lra; lra). destruct (Rlt_dec _ _) as [L'|L']; [|contradiction].
    apply to_int_IZR, A.
Qed.
Lemma c85_buffer om (s : server R) x : (s "buffer_size" = Some (XDouble x) \/ exists z, s "buffer_size" = Some (XInt z) /\ x = IZR z) ->
  (forall y, s "num_basis" <> Some (XDouble y)) -> x <= -1 \/ IZR two32 <= x -> main_of om s = UB UFloatCast.
Proof.
  intros E N H. rewrite main_read. unfold read_params, get_uint, get_int.
  assert (G : get_double s "buffer_size" (nofZ 1000000) = x). { unfold get_double. destruct E as [->|(z & -> & ->)]; reflexivity. }
  rewrite G. assert (K : to_u32 x = UB UFloatCast).
  { unfold to_u32. cbn [ntrunc RNum]. destruct (Z.leb_spec 0 (Ztrunc x)) as [A|A]; [|reflexivity]. destruct (Z.ltb_spec (Ztrunc x) two32) as [B|B]; [|reflexivity]. exfalso. destruct H as [H|H].
    - assert (Ztrunc x <= -1)%Z; [|lia]. rewrite <- (Ztrunc_IZR (-1)). apply Ztrunc_le. exact H.
    - assert (two32 <= Ztrunc x)%Z; [|lia]. rewrite <- (Ztrunc_IZR two32). apply Ztrunc_le. exact H. }
  rewrite K. destruct (s "num_basis") as [[| | |y| |]|] eqn:Q; try reflexivity. destruct (N y eq_refl).
Qed.

(** ** Ints and doubles *)
Lemma same_double s s' name dflt : same_value (s name) (s' name) -> @get_double R RNum s name dflt = get_double s' name dflt.
Proof.
  unfold get_double. intros [->|(x & y & -> & -> & [[->|(z & _ & [(-> & ->)|(-> & ->)])]|(l & m & -> & -> & _)])]; reflexivity.
Qed.
Lemma same_int s s' name dflt : same_value (s name) (s' name) -> @get_uint R RNum s name dflt = get_uint s' name dflt.
Proof.
  unfold get_uint, get_int. intros [->|(x & y & -> & -> & [[->|(z & Z & [(-> & ->)|(-> & ->)])]|(l & m & -> & -> & _)])]; try reflexivity;
    rewrite int_of_IZR by exact Z; reflexivity.
Qed.
Lemma same_number_number a b : same_number a b -> @number R RNum a = number b.
Proof. intros [->|(z & _ & [(-> & ->)|(-> & ->)])]; reflexivity. Qed.
Lemma same_fill l m : Forall2 same_number l m -> forall vec, @fill R RNum vec l = fill vec m.
Proof.
  induction 1 as [|a b l m H F IH]; intros [|v vec]; try reflexivity. cbn [fill]. rewrite (same_number_number _ _ H).
  destruct (number b); [rewrite IH|]; reflexivity.
Qed.
Lemma same_vector s s' name dflt : same_value (s name) (s' name) -> @get_vector R RNum s name dflt = get_vector s' name dflt.
Proof.
  unfold get_vector. intros [->|(x & y & -> & -> & [[->|(z & _ & [(-> & ->)|(-> & ->)])]|(l & m & -> & -> & F)])]; try reflexivity.
  assert (E : List.length l = List.length m) by (induction F; cbn; congruence). rewrite E. apply same_fill, F.
Qed.
Lemma c85_same om s s' : s "means" = s' "means" -> s "sigmas" = s' "sigmas" ->
  (forall name, name <> "means" -> name <> "sigmas" -> same_value (s name) (s' name)) -> @main_of R RNum om s = main_of om s'.
Proof.
  intros M S H. rewrite !main_read. f_equal. unfold read_params, get_xml.
  repeat (rewrite (same_int s s') by (apply H; discriminate)). rewrite !(same_double s s') by (apply H; discriminate).
  rewrite (same_vector s s') by (apply H; discriminate). rewrite M, S. reflexivity.
Qed.

(** ** Both arithmetics *)
Lemma exact_R : exact_counts RNum.
Proof. intros z H. apply to_u32_IZR. unfold two32. lia. Qed.
Lemma exact_64 (L : libm) : exact_counts (F64 L).
Proof.
  intros z H. destruct (ofZ_exact z) as [A B]; [lia|]. unfold to_u32. cbn [ntrunc nofZ F64]. unfold b64_trunc. rewrite B.
  assert (E : Btrunc (b64_ofZ z) = z). { apply eq_IZR. rewrite (Btrunc_correct 53 1024 _), A. rewrite round_FIX_IZR. rewrite Ztrunc_IZR. reflexivity. }
  rewrite E. destruct (Z.leb_spec 0 z), (Z.ltb_spec z two32); unfold two32 in *; try lia. reflexivity.
Qed.
