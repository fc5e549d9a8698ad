(** Proofs about the adaptive integrator. *)
From Coq Require Import Reals Lra ZArith Lia List Bool.
From Flocq Require Import Core.Raux Core.Generic_fmt Core.Round_NE.
From Verif Require Import Outcome Num NumericsModel RobotModel SpecRobot SpecRk NumericsProofs MotionProofs RobotProofs.
Import ListNotations.
Local Open Scope R_scope.

(** ** One step on a linear equation *)
Lemma vscale_times x a k : vscale (times x a) k = times x (a * k).
Proof. unfold vscale, times. cbn [v0 v1 v2]. rrn. apply V3_eq; ring. Qed.
Lemma vadd_times x a b : vadd (times x a) (times x b) = times x (a + b).
Proof. unfold vadd, times. cbn [v0 v1 v2]. rrn. apply V3_eq; ring. Qed.
Lemma vsub_times x a b : vsub (times x a) (times x b) = times x (a - b).
Proof. unfold vsub, times. cbn [v0 v1 v2]. rrn. apply V3_eq; ring. Qed.
Lemma times_times x a b : times (times x a) b = times x (a * b).
Proof. unfold times. cbn [v0 v1 v2]. apply V3_eq; ring. Qed.
Lemma times_1 x : x = times x 1.
Proof. unfold times. rewrite <- (vec3_eta x) at 1. apply V3_eq; ring. Qed.
Lemma sup3_times x k : sup3 (times x k) = Rabs k * sup3 x.
Proof. rewrite <- sup3_scale. reflexivity. Qed.
Definition K5 (z : R) : R := (1 / 1) * z ^ 1 + (1 / 1) * z ^ 2 + (1 / 2) * z ^ 3 + (5 / 12) * z ^ 4 + (-5 / 104) * z ^ 5.
Definition K6 (z : R) : R := (1 / 1) * z ^ 1 + (1 / 2) * z ^ 2 + (1 / 8) * z ^ 3 + (-1 / 24) * z ^ 4 + (-11 / 1248) * z ^ 5 + (11 / 832) * z ^ 6.
Lemma c83_stages (lam : R) x sh h : h <> 0 ->
  rk45_stages (fun x => Ok (times x lam)) x sh h =
  Ok (times x (fehlberg4 (sh * lam) + excess (sh * lam)),
      Rabs (fehlberg5 (sh * lam) - fehlberg4 (sh * lam) - excess (sh * lam)) * sup3 x / h).
Proof.
  intros Hh. assert (K : forall y a b, y = times x a -> b = a * lam * sh -> vscale (times y lam) sh = times x b).
  { intros y a b -> ->. rewrite vscale_times, times_times. f_equal; ring. }
  unfold rk45_stages. cbn [bind].
  set (k1 := vscale (times x lam) sh). cbn beta.
  assert (E1 : k1 = times x (sh * lam)) by (apply (K x 1); [apply times_1|ring]). clearbody k1.
  set (z := sh * lam) in *.
  assert (X1 := times_1 x).
  set (k2 := vscale (times (vadd x (vscale k1 (lit 1 4))) lam) sh). cbn beta.
  assert (E2 : k2 = times x (z + z ^ 2 / 4)).
  { eapply K; [rewrite E1; rewrite X1 at 1; rewrite ?vscale_times; repeat (rewrite vadd_times || rewrite vsub_times); reflexivity|]. rrn. unfold z. field. }
  clearbody k2.
  match goal with |- context [vscale (times ?y lam) sh] => set (y3 := y) end.
  set (k3 := vscale (times y3 lam) sh). cbn beta.
  assert (E3 : k3 = times x (z + 3 / 8 * z ^ 2 + 9 / 128 * z ^ 3)).
  { eapply K; [unfold y3; rewrite E1, E2; rewrite X1 at 1; rewrite ?vscale_times; repeat (rewrite vadd_times || rewrite vsub_times); reflexivity|]. rrn. unfold z. field. }
  clearbody k3. clear y3.
  match goal with |- context [vscale (times ?y lam) sh] => set (y4 := y) end.
  set (k4 := vscale (times y4 lam) sh). cbn beta.
  assert (E4 : k4 = times x (z + 12 / 13 * z ^ 2 + 72 / 169 * z ^ 3 + 513 / 2197 * z ^ 4)).
  { eapply K; [unfold y4; rewrite E1, E2, E3; rewrite X1 at 1; rewrite ?vscale_times; repeat (rewrite vadd_times || rewrite vsub_times); reflexivity|]. rrn. unfold z. field. }
  clearbody k4. clear y4.
  match goal with |- context [vscale (times ?y lam) sh] => set (y5 := y) end.
  set (k5 := vscale (times y5 lam) sh). cbn beta.
  assert (E5 : k5 = times x (K5 z)).
  { eapply K; [unfold y5; rewrite E1, E2, E3, E4; rewrite X1 at 1; rewrite ?vscale_times; repeat (rewrite vadd_times || rewrite vsub_times); reflexivity|]. rrn. unfold K5, z. field. }
  clearbody k5. clear y5.
  match goal with |- context [vscale (times ?y lam) sh] => set (y6 := y) end.
  set (k6 := vscale (times y6 lam) sh). cbn beta.
  assert (E6 : k6 = times x (K6 z)).
  { eapply K; [unfold y6; rewrite E1, E2, E3, E4, E5; rewrite X1 at 1; rewrite ?vscale_times; repeat (rewrite vadd_times || rewrite vsub_times); reflexivity|]. rrn. unfold K6, K5, z. field. }
  clearbody k6. clear y6. cbv zeta.
  match goal with |- Ok (?a, _) = _ => set (xn := a) end.
  assert (EN : xn = times x (fehlberg4 z + excess z)).
  { unfold xn. rewrite E1, E3, E4, E5. rewrite X1 at 1. rewrite ?vscale_times; repeat (rewrite vadd_times || rewrite vsub_times). f_equal. rrn. unfold fehlberg4, taylor4, excess, delta, K5. field. }
  clearbody xn. f_equal. f_equal; [exact EN|]. rewrite max3_R.
  rewrite E1, E3, E4, E5, E6, EN. rewrite X1 at 1. rewrite ?vscale_times; repeat (rewrite vadd_times || rewrite vsub_times); rewrite sup3_times.
  change (@ndiv R RNum) with Rdiv. f_equal. f_equal. f_equal. rrn. unfold fehlberg5, fehlberg4, taylor4, excess, delta, K5, K6. field.
Qed.

(** ** The stored points *)
Lemma tol_pos : 0 < tol.
Proof. unfold tol. lra. Qed.
Lemma accept_lt (c : rk45 R) r : rk45_accept c r = true -> r < rk_eps c + tol.
Proof.
  unfold rk45_accept. intros H. apply orb_prop in H. pose proof tol_pos. destruct H as [H|H].
  - cbn [nlt RNum] in H. apply Rltb_true in H. lra.
  - apply (proj1 (almost_equal_R _ _)) in H. unfold tol. apply Rabs_def2 in H. lra.
Qed.
Lemma nearest_index steps t horizon i : (1 <= steps <= two32)%Z -> 0 < horizon -> 0 <= t -> rk45_index steps t horizon = Ok i ->
  nearest i (IZR (steps - 1) * (t / horizon)).
Proof.
  intros S H T. unfold rk45_index, to_u32. unfold u32. rewrite Z.mod_small by lia. rrn.
  assert (Q : 0 <= t / horizon). { apply Rmult_le_pos; [lra|]. left. apply Rinv_0_lt_compat. exact H. }
  rewrite (Rabs_pos_eq _ Q), Zfloor_IZR, Ztrunc_IZR. set (k := ZnearestA _).
  destruct (Z.leb_spec 0 k); [|discriminate]. destruct (Z.ltb_spec k two32); [|discriminate]. cbn. intros E. injection E as <-.
  split; [assumption|]. rewrite Rabs_minus_sym. pose proof (Znearest_half (Z.leb 0) (IZR (steps - 1) * (t / horizon))) as N.
  change (Znearest (Z.leb 0) (IZR (steps - 1) * (t / horizon))) with k in N. lra.
Qed.
Lemma column_of {A} (l : list A) i a : col_at l i = Ok a -> column l i a.
Proof.
  unfold col_at, nthZ, column. destruct (i <? 0)%Z; [discriminate|]. destruct (nth_error _ _) eqn:E; [|discriminate]. intros K. injection K as <-. reflexivity.
Qed.
Lemma linked_cons {A} (S : A -> A -> Prop) a b l : linked S (a :: b :: l) <-> S a b /\ linked S (b :: l).
Proof. reflexivity. Qed.
Lemma linked_snoc {A} (S : A -> A -> Prop) l : forall a b, linked S (l ++ [a]) -> S a b -> linked S (l ++ [a; b]).
Proof.
  induction l as [|c l IH]; intros a b H K; [cbn; auto|]. destruct l as [|d l].
  - cbn in H |- *. tauto.
  - cbn [app] in *. rewrite linked_cons in *. destruct H as [H1 H2]. split; [exact H1|]. apply (IH a b H2 K).
Qed.
Lemma linked_rev {A} (S : A -> A -> Prop) l : linked (fun b a => S a b) l -> linked S (rev l).
Proof.
  induction l as [|a l IH]; intros H; [exact I|]. destruct l as [|b l]; [cbn; auto|].
  rewrite linked_cons in H. destruct H as [H1 H2]. specialize (IH H2). cbn [rev] in *. rewrite <- app_assoc. apply linked_snoc; assumption.
Qed.

Section Forward.
Context {U : Type} (c : rk45 R) (f : vec3 R -> U -> res (vec3 R)) (ut : list U) (steps ms : Z) (horizon : R).
Hypothesis Hmin : 0 < rk_hmin c.
Hypothesis Hmm : rk_hmin c <= rk_hmax c.
Hypothesis Hs : (1 <= steps <= two32)%Z.
Hypothesis Hh : 0 < horizon.
Definition link (a b : R * vec3 R) : Prop := forward_step f ut steps horizon (rk_eps c) a b /\ step_size (rk_hmin c) (rk_hmax c) horizon a b.
Definition fits (t h : R) : Prop := 0 < h <= rk_hmax c /\ (rk_hmin c <= h /\ t + h <= horizon \/ t + h = horizon).
Lemma cut_fits t h : rk_hmin c <= h <= rk_hmax c -> t < horizon -> fits t (if (horizon <? t + h)%num then (horizon - t)%num else h).
Proof.
  intros A B. cbn [nlt nadd nsub RNum]. destruct (Rltb horizon (t + h)) eqn:E.
  - apply Rltb_true in E. split; [lra|]. right. lra.
  - apply Rltb_false in E. split; [lra|]. left. lra.
Qed.
Lemma path_loop : forall fuel x t h rest iter st',
  linked (fun b a => link a b) ((t, x) :: rest) -> 0 <= t -> tol <= horizon - t -> fits t h -> (lenZ ((t, x) :: rest) <= ms)%Z ->
  rk45_loop fuel c f ut steps ms horizon x t h ((t, x) :: rest) iter = Ok (Some st') ->
  exists t' x' pre, st' = (t', x') :: pre ++ (t, x) :: rest /\ linked (fun b a => link a b) st' /\ horizon - tol < t' <= horizon /\ (lenZ st' <= ms)%Z.
Proof.
  induction fuel as [|fuel IH]; intros x t h rest iter st' LK T0 T1 FT LN; [discriminate|]. cbn [rk45_loop].
  destruct (rk45_index _ _ _) as [i| | |] eqn:EI; cbn [bind]; try discriminate. apply nearest_index in EI; [|assumption..].
  destruct (col_at _ _) as [u| | |] eqn:CU; cbn [bind]; try discriminate. apply column_of in CU.
  destruct (rk45_step f x u h) as [[xn r]| | |] eqn:ST; cbn [bind]; try discriminate.
  pose proof tol_pos as TP.
  destruct (rk45_accept c r) eqn:A; cbn [bind].
  - destruct (_ <? _)%Z eqn:L; cbn [bind]; try discriminate. destruct (rk45_adapt c h r) as [h'| | |] eqn:AE; cbn [bind]; try discriminate.
    destruct (adapt_range c h r Hmm) as (h2 & AE2 & HR). rewrite AE2 in AE. injection AE as ->.
    change (t + h)%num with (t + h). destruct FT as ((H0 & H1) & H2).
    assert (LK' : linked (fun b a => link a b) ((t + h, xn) :: (t, x) :: rest)).
    { split; [|exact LK]. split.
      - split; [cbn [fst]; lra|]. exists i, u, r. cbn [fst snd]. split; [exact EI|]. split; [exact CU|]. split; [|apply accept_lt; exact A].
        replace (t + h - t) with h by ring. exact ST.
      - unfold step_size. cbn [fst]. replace (t + h - t) with h by ring. rewrite Rabs_pos_eq by lra. split; [lra|]. destruct H2 as [[H2 _]|H2]; [left; exact H2|right; exact H2]. }
    assert (LN' : (lenZ (((t + h)%R, xn) :: (t, x) :: rest) <= ms)%Z).
    { apply Z.ltb_lt in L. unfold lenZ in *. cbn [length] in *. lia. }
    assert (LE : t + h <= horizon) by (destruct H2; lra).
    destruct (_ =? _)%Z; [discriminate|].
    destruct ((horizon <? (t + h)%R)%num || almost_equal (t + h) horizon)%bool eqn:FL.
    + intros E. injection E as <-. exists (t + h), xn, []. split; [reflexivity|]. split; [exact LK'|]. split; [|exact LN'].
      apply orb_prop in FL. destruct FL as [FL|FL]; [cbn [nlt RNum] in FL; apply Rltb_true in FL; lra|].
      apply (proj1 (almost_equal_R _ _)) in FL. apply Rabs_def2 in FL. unfold tol. lra.
    + apply orb_false_elim in FL as [L1 L2]. cbn [nlt RNum] in L1. apply Rltb_false in L1. apply (proj1 (almost_equal_Rf _ _)) in L2.
      assert (T1' : tol <= horizon - (t + h)) by (unfold tol; rewrite Rabs_minus_sym, Rabs_pos_eq in L2; lra).
      intros E. cbn [negb andb] in E. change (t + h)%num with (t + h) in E. apply IH in E; [|assumption|lra|exact T1'|apply cut_fits; lra|exact LN'].
      destruct E as (t' & x' & pre & -> & Q). exists t', x', (pre ++ [(t + h, xn)]). split; [rewrite <- app_assoc; reflexivity|exact Q].
  - destruct (rk45_adapt c h r) as [h'| | |] eqn:AE; cbn [bind]; try discriminate.
    destruct (adapt_range c h r Hmm) as (h2 & AE2 & HR). rewrite AE2 in AE. injection AE as ->.
    destruct (_ =? _)%Z; [discriminate|].
    destruct ((horizon <? t)%num || almost_equal t horizon)%bool eqn:FL.
    + exfalso. apply orb_prop in FL. destruct FL as [FL|FL]; [cbn [nlt RNum] in FL; apply Rltb_true in FL; lra|].
      apply (proj1 (almost_equal_R _ _)) in FL. apply Rabs_def2 in FL. unfold tol in *. lra.
    + intros E. cbn [negb andb] in E. apply IH in E; auto. apply cut_fits; lra.
Qed.
End Forward.
Lemma c82_forward {U} (c : rk45 R) (f : vec3 R -> U -> res (vec3 R)) x0 ut dt horizon n st :
  0 < rk_hmin c -> rk_hmin c <= rk_hmax c -> (rk_hmin c + rk_hmax c) / 2 <= horizon -> tol <= horizon ->
  num_steps dt horizon = Ok n -> (1 <= n)%Z -> rk45_solve c f x0 ut dt horizon = Ok (Some st) ->
  exists t x mid, rev st = (0, x0) :: mid ++ [(t, x)] /\ horizon - tol < t <= horizon /\
    linked (fun a b => forward_step f ut n horizon (rk_eps c) a b /\ step_size (rk_hmin c) (rk_hmax c) horizon a b) (rev st) /\
    IZR (lenZ st) <= horizon / rk_hmin c + 1.
Proof.
  intros Hmin Hmm H0 Ht N Hn. unfold rk45_solve. rewrite N. cbn [bind].
  destruct (to_u32 _) as [m| | |] eqn:M; cbn [bind]; try discriminate. destruct (_ =? 0)%Z eqn:Z0; [discriminate|]. intros E.
  pose proof tol_pos as TP.
  assert (Hn2 : (1 <= n <= two32)%Z).
  { unfold num_steps in N. apply u32_nonneg in N. lia. }
  assert (Q0 : 0 <= horizon / rk_hmin c) by (apply Rmult_le_pos; [lra|left; apply Rinv_0_lt_compat; exact Hmin]).
  pose proof (u32_nonneg _ _ M) as M1. apply u32_floor in M; [|exact Q0].
  apply Z.eqb_neq in Z0. assert (M2 : (m + 1 < two32)%Z).
  { destruct (Z_lt_le_dec (m + 1) two32); [assumption|]. exfalso. apply Z0. replace m with (two32 - 1)%Z by lia. reflexivity. }
  unfold u32 in E. rewrite (Z.mod_small (m + 1)) in E by lia.
  change (@n0 R RNum) with 0 in E.
  apply (path_loop c f ut n (m + 1) horizon Hmin Hmm Hn2 ltac:(lra)) in E; [|split; exact I|lra|lra| |unfold lenZ; cbn; lia].
  - destruct E as (t & x & pre & -> & LK & T & LN). exists t, x, (rev pre).
    split; [cbn [rev app]; rewrite rev_app_distr; reflexivity|]. split; [exact T|]. split; [apply linked_rev; exact LK|].
    apply Rle_trans with (IZR (m + 1)); [apply IZR_le; exact LN|]. rewrite plus_IZR. pose proof (Zfloor_lb (horizon / rk_hmin c)). change (horizon / rk_hmin c)%num with (horizon / rk_hmin c) in M. rewrite M. lra.
  - change ((rk_hmax c + rk_hmin c) / n2)%num with ((rk_hmax c + rk_hmin c) / 2). split; [lra|]. left. lra.
Qed.

Section Backward.
Context {U : Type} (c : rk45 R) (func : @costate R) (fdx : vec3 R -> U -> mat3 R) (xt : list (vec3 R)) (ut : list U) (edx bdx : list (vec3 R))
  (steps ms : Z) (horizon : R).
Hypothesis Hmin : 0 < rk_hmin c.
Hypothesis Hmm : rk_hmin c <= rk_hmax c.
Hypothesis Hs : (1 <= steps <= two32)%Z.
Hypothesis Hh : 0 < horizon.
Definition co_link (a b : R * vec3 R) : Prop :=
  backward_step func fdx xt ut edx bdx steps horizon (rk_eps c) a b /\ step_size (rk_hmin c) (rk_hmax c) 0 a b.
Definition co_fits (t h : R) : Prop := 0 < h <= rk_hmax c /\ (rk_hmin c <= h /\ 0 <= t - h \/ t - h = 0).
Lemma co_cut_fits t h : rk_hmin c <= h <= rk_hmax c -> 0 < t -> co_fits t (if (t - h <? n0)%num then t else h).
Proof.
  intros A B. change (@n0 R RNum) with 0. cbn [nlt nadd nsub RNum]. destruct (Rltb (t - h) 0) eqn:E.
  - apply Rltb_true in E. split; [lra|]. right. lra.
  - apply Rltb_false in E. split; [lra|]. left. lra.
Qed.
Lemma co_path_loop : forall fuel x t h rest iter st',
  linked (fun b a => co_link a b) ((t, x) :: rest) -> tol <= t -> co_fits t h -> (lenZ ((t, x) :: rest) <= ms)%Z ->
  rk45_co_loop fuel c func fdx xt ut edx bdx steps ms horizon x t h ((t, x) :: rest) iter = Ok (Some st') ->
  exists t' x' pre, st' = (t', x') :: pre ++ (t, x) :: rest /\ linked (fun b a => co_link a b) st' /\ 0 <= t' < tol /\ (lenZ st' <= ms)%Z.
Proof.
  induction fuel as [|fuel IH]; intros x t h rest iter st' LK T1 FT LN; [discriminate|]. cbn [rk45_co_loop].
  pose proof tol_pos as TP.
  destruct (rk45_index _ _ _) as [i| | |] eqn:EI; cbn [bind]; try discriminate. apply nearest_index in EI; [|first [assumption|lra]..].
  destruct (col_at edx _) as [e| | |] eqn:CE; cbn [bind]; try discriminate. apply column_of in CE.
  destruct (col_at bdx _) as [d| | |] eqn:CD; cbn [bind]; try discriminate. apply column_of in CD.
  destruct (col_at xt _) as [y| | |] eqn:CX; cbn [bind]; try discriminate. apply column_of in CX.
  destruct (col_at ut _) as [u| | |] eqn:CU; cbn [bind]; try discriminate. apply column_of in CU.
  destruct (rk45_co_step _ _ _ _ _ _) as [[xn r]| | |] eqn:ST; cbn [bind]; try discriminate.
  change (@n0 R RNum) with 0.
  destruct (rk45_accept c r) eqn:A; cbn [bind].
  - destruct (_ <? _)%Z eqn:L; cbn [bind]; try discriminate. destruct (rk45_adapt c h r) as [h'| | |] eqn:AE; cbn [bind]; try discriminate.
    destruct (adapt_range c h r Hmm) as (h2 & AE2 & HR). rewrite AE2 in AE. injection AE as ->.
    change (t - h)%num with (t - h). destruct FT as ((H0 & H1) & H2).
    assert (LK' : linked (fun b a => co_link a b) ((t - h, xn) :: (t, x) :: rest)).
    { split; [|exact LK]. split.
      - split; [cbn [fst]; lra|]. exists i, y, u, e, d, r. cbn [fst snd]. repeat (split; [assumption|]). split; [|apply accept_lt; exact A].
        replace (t - (t - h)) with h by ring. exact ST.
      - unfold step_size. cbn [fst]. replace (t - h - t) with (- h) by ring. rewrite Rabs_Ropp, Rabs_pos_eq by lra. split; [lra|]. destruct H2 as [[H2 _]|H2]; [left; exact H2|right; exact H2]. }
    assert (LN' : (lenZ (((t - h)%R, xn) :: (t, x) :: rest) <= ms)%Z).
    { apply Z.ltb_lt in L. unfold lenZ in *. cbn [length] in *. lia. }
    assert (LE : 0 <= t - h) by (destruct H2; lra).
    destruct (_ =? _)%Z; [discriminate|].
    destruct (((t - h)%R <? 0)%num || almost_equal (t - h) 0)%bool eqn:FL.
    + intros E. injection E as <-. exists (t - h), xn, []. split; [reflexivity|]. split; [exact LK'|]. split; [|exact LN'].
      apply orb_prop in FL. destruct FL as [FL|FL]; [cbn [nlt RNum] in FL; apply Rltb_true in FL; lra|].
      apply (proj1 (almost_equal_R _ _)) in FL. apply Rabs_def2 in FL. unfold tol. lra.
    + apply orb_false_elim in FL as [L1 L2]. cbn [nlt RNum] in L1. apply Rltb_false in L1. apply (proj1 (almost_equal_Rf _ _)) in L2.
      assert (T1' : tol <= t - h) by (unfold tol; rewrite Rminus_0_r, Rabs_pos_eq in L2; lra).
      intros E. cbn [negb andb] in E. apply IH in E; [|assumption|exact T1'|apply co_cut_fits; lra|exact LN'].
      destruct E as (t' & x' & pre & -> & Q). exists t', x', (pre ++ [(t - h, xn)]). split; [rewrite <- app_assoc; reflexivity|exact Q].
  - destruct (rk45_adapt c h r) as [h'| | |] eqn:AE; cbn [bind]; try discriminate.
    destruct (adapt_range c h r Hmm) as (h2 & AE2 & HR). rewrite AE2 in AE. injection AE as ->.
    destruct (_ =? _)%Z; [discriminate|].
    destruct ((t <? 0)%num || almost_equal t 0)%bool eqn:FL.
    + exfalso. apply orb_prop in FL. destruct FL as [FL|FL]; [cbn [nlt RNum] in FL; apply Rltb_true in FL; lra|].
      apply (proj1 (almost_equal_R _ _)) in FL. apply Rabs_def2 in FL. unfold tol in *. lra.
    + intros E. cbn [negb andb] in E. apply IH in E; auto. apply co_cut_fits; lra.
Qed.
End Backward.
Lemma c82_backward {U} (c : rk45 R) func (fdx : vec3 R -> U -> mat3 R) rhoT xt ut edx bdx dt horizon n st :
  0 < rk_hmin c -> rk_hmin c <= rk_hmax c -> rk_hmin c <= horizon -> tol <= horizon ->
  num_steps dt horizon = Ok n -> (1 <= n)%Z -> rk45_co_solve c func fdx rhoT xt ut edx bdx dt horizon = Ok (Some st) ->
  exists t x mid, rev st = (horizon, rhoT) :: mid ++ [(t, x)] /\ 0 <= t < tol /\
    linked (fun a b => backward_step func fdx xt ut edx bdx n horizon (rk_eps c) a b /\ step_size (rk_hmin c) (rk_hmax c) 0 a b) (rev st) /\
    IZR (lenZ st) <= horizon / rk_hmin c + 1.
Proof.
  intros Hmin Hmm H0 Ht N Hn. unfold rk45_co_solve. rewrite N. cbn [bind].
  destruct (to_u32 _) as [m| | |] eqn:M; cbn [bind]; try discriminate. destruct (_ =? 0)%Z eqn:Z0; [discriminate|]. intros E.
  pose proof tol_pos as TP.
  assert (Hn2 : (1 <= n <= two32)%Z).
  { unfold num_steps in N. apply u32_nonneg in N. lia. }
  assert (Q0 : 0 <= horizon / rk_hmin c) by (apply Rmult_le_pos; [lra|left; apply Rinv_0_lt_compat; exact Hmin]).
  pose proof (u32_nonneg _ _ M) as M1. apply u32_floor in M; [|exact Q0].
  apply Z.eqb_neq in Z0. assert (M2 : (m + 1 < two32)%Z).
  { destruct (Z_lt_le_dec (m + 1) two32); [assumption|]. exfalso. apply Z0. replace m with (two32 - 1)%Z by lia. reflexivity. }
  unfold u32 in E. rewrite (Z.mod_small (m + 1)) in E by lia.
  apply (co_path_loop c func fdx xt ut edx bdx n (m + 1) horizon Hmin Hmm Hn2 ltac:(lra)) in E; [|split; exact I|lra| |unfold lenZ; cbn; lia].
  - destruct E as (t & x & pre & -> & LK & T & LN). exists t, x, (rev pre).
    split; [cbn [rev app]; rewrite rev_app_distr; reflexivity|]. split; [exact T|]. split; [apply linked_rev; exact LK|].
    apply Rle_trans with (IZR (m + 1)); [apply IZR_le; exact LN|]. rewrite plus_IZR. pose proof (Zfloor_lb (horizon / rk_hmin c)). change (horizon / rk_hmin c)%num with (horizon / rk_hmin c) in M. rewrite M. lra.
  - split; [lra|]. left. lra.
Qed.

(** ** The step size control *)
Lemma c82_adapt (c : rk45 R) h r q : rk_hmin c <= rk_hmax c -> 0 < q -> q ^ 4 = rk_eps c / r ->
  rk45_adapt c h r = Ok (Rmax (rk_hmin c) (Rmin (rk_hmax c) (84 / 100 * q * h))).
Proof.
  intros H Q E. unfold rk45_adapt, clampable. cbn [nlt RNum]. rewrite (proj2 (Rltb_false _ _) H). cbn [negb]. f_equal.
  assert (P : (npow (rk_eps c / r) (lit 1 4))%num = q).
  { rrn. rewrite <- E. rewrite <- (Rpower_pow 4 q Q). rewrite Rpower_mult. replace (INR 4 * (1 / 4)) with 1 by (cbn; lra). apply Rpower_1, Q. }
  rewrite P. unfold fclamp. rrn. replace (h * (84 / 100 * q)) with (84 / 100 * q * h) by ring. set (z := 84 / 100 * q * h).
  destruct (Rltb z (rk_hmin c)) eqn:E1.
  - apply Rltb_true in E1. rewrite Rmin_right, Rmax_left by lra. reflexivity.
  - apply Rltb_false in E1. destruct (Rltb (rk_hmax c) z) eqn:E2.
    + apply Rltb_true in E2. rewrite Rmin_left, Rmax_right by lra. reflexivity.
    + apply Rltb_false in E2. rewrite Rmin_right, Rmax_right by lra. reflexivity.
Qed.

(** ** The co-state equation *)
Lemma rhodot_entries (rho g b : vec3 R) (m : mat3 R) j : (j < 3)%nat ->
  get j (rhodot rho g b m) = - get j g - get j b - (entry m 0 j * v0 rho + entry m 1 j * v1 rho + entry m 2 j * v2 rho).
Proof.
  intros H. destruct m as [[] [] []]. destruct j as [|[|[|]]]; [| | |lia];
    unfold rhodot, mtvmul, vsub, vneg, vdot, col0, col1, col2; cbn; reflexivity.
Qed.
