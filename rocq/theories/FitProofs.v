(** The quartic fit of RungeKutta45 on motions with constant velocity. *)
From Coq Require Import Reals Lra ZArith Lia List.
From Flocq Require Import Core.Raux.
From Verif Require Import Outcome Num NumericsModel RobotModel FitModel SpecMotion SpecRobot SpecFit NumericsProofs MotionProofs RobotProofs.
Import ListNotations.
Local Open Scope R_scope.

(** ** Polynomials, lowest power first *)
Fixpoint ev (l : list R) (t : R) : R := match l with [] => 0 | c :: l' => c + t * ev l' t end.
Fixpoint quot (l : list R) (a : R) : list R :=
  match l with [] => [] | _ :: l' => match l' with [] => [] | _ => ev l' a :: quot l' a end end.
Lemma quot_len l a : length (quot l a) = (length l - 1)%nat.
Proof.
  induction l as [|c l IH]; [reflexivity|]. cbn [quot]. destruct l as [|c' l]; [reflexivity|].
  cbn [length] in *. rewrite IH. lia.
Qed.
Lemma quot_ev l a t : ev l t - ev l a = (t - a) * ev (quot l a) t.
Proof.
  induction l as [|c l IH]; [cbn; ring|]. cbn [quot]. destruct l as [|c' l]; [cbn; ring|].
  change (ev (c :: c' :: l) t) with (c + t * ev (c' :: l) t). change (ev (c :: c' :: l) a) with (c + a * ev (c' :: l) a).
  change (ev (ev (c' :: l) a :: quot (c' :: l) a) t) with (ev (c' :: l) a + t * ev (quot (c' :: l) a) t).
  replace (t * ev (c' :: l) t) with (t * (ev (c' :: l) t - ev (c' :: l) a) + t * ev (c' :: l) a) by ring. rewrite IH. ring.
Qed.
Lemma roots_zero : forall ts l, NoDup ts -> (length l <= length ts)%nat -> (forall t, In t ts -> ev l t = 0) -> forall t, ev l t = 0.
Proof.
  induction ts as [|a ts IH]; intros l N L H t.
  - destruct l; [reflexivity|cbn in L; lia].
  - inversion N as [|? ? Na Nt]; subst.
    assert (Ea : ev l a = 0) by (apply H; left; reflexivity).
    assert (Q : forall s, ev (quot l a) s = 0).
    { apply IH; [exact Nt|rewrite quot_len; cbn [length] in L; lia|]. intros s Hs.
      pose proof (quot_ev l a s) as E. rewrite Ea, (H s (or_intror Hs)) in E.
      assert (s - a <> 0) by (intros Z; apply Na; replace a with s by lra; exact Hs).
      apply Rmult_eq_reg_l with (s - a); [lra|assumption]. }
    pose proof (quot_ev l a t) as E. rewrite Ea, Q in E. lra.
Qed.
Lemma polyval5 a b c d e t : polyval [a; b; c; d; e] t = ev [e; d; c; b; a] t.
Proof. cbn. ring. Qed.
Lemma len5 (p : list R) : length p = 5%nat -> exists a b c d e, p = [a; b; c; d; e].
Proof. destruct p as [|a [|b [|c [|d [|e [|]]]]]]; try discriminate. intros _. eauto 6. Qed.

Lemma misfit_pos pts p : 0 <= misfit pts p.
Proof. induction pts as [|q pts IH]; [cbn; lra|]. cbn [misfit fold_right]. fold (misfit pts p). pose proof (pow2_ge_0 (polyval p (fst q) - snd q)). lra. Qed.
Lemma misfit_zero pts p : misfit pts p <= 0 -> forall q, In q pts -> polyval p (fst q) = snd q.
Proof.
  induction pts as [|r pts IH]; [intros _ q []|]; intros H q [E|I].
  - subst r. cbn [misfit fold_right] in H. fold (misfit pts p) in H. pose proof (misfit_pos pts p). pose proof (pow2_ge_0 (polyval p (fst q) - snd q)).
    assert (Z : (polyval p (fst q) - snd q) ^ 2 = 0) by lra. rewrite <- Rsqr_pow2 in Z. apply Rsqr_0_uniq in Z. lra.
  - apply IH; [|exact I]. cbn [misfit fold_right] in H. fold (misfit pts p) in H. pose proof (pow2_ge_0 (polyval p (fst r) - snd r)). lra.
Qed.
Lemma misfit_exact pts p : (forall q, In q pts -> polyval p (fst q) = snd q) -> misfit pts p = 0.
Proof.
  induction pts as [|r pts IH]; intros H; [reflexivity|]. cbn [misfit fold_right]. fold (misfit pts p).
  rewrite IH by (intros q I; apply H; right; exact I). rewrite (H r (or_introl eq_refl)). ring.
Qed.
(** The best quartic through at least five points of a line is the line. *)
Lemma line_fit a b ts p : NoDup ts -> (5 <= length ts)%nat -> best_quartic (map (fun t => (t, a + b * t)) ts) p ->
  forall t, polyval p t = a + b * t.
Proof.
  intros N L (P5 & B) t. destruct (len5 _ P5) as (p4 & p3 & p2 & p1 & p0 & ->).
  assert (Z : misfit (map (fun t => (t, a + b * t)) ts) [p4; p3; p2; p1; p0] <= 0).
  { eapply Rle_trans; [apply (B [0; 0; 0; b; a] eq_refl)|]. right. apply misfit_exact. intros q I. apply in_map_iff in I. destruct I as (s & <- & _). cbn. ring. }
  assert (E : ev [p0 - a; p1 - b; p2; p3; p4] t = 0).
  { apply (roots_zero ts); [exact N|cbn [length]; lia|]. intros s I.
    pose proof (misfit_zero _ _ Z (s, a + b * s) (in_map (fun t => (t, a + b * t)) ts s I)) as E. rewrite polyval5 in E. cbn in E |- *. lra. }
  rewrite polyval5. cbn in E |- *. lra.
Qed.
Lemma fits_lines_inhabited : exists fit, fits_lines fit.
Proof.
  (* through the first two points *)
  exists (fun pts => match pts with (s, y) :: (t, z) :: _ => [0; 0; 0; (z - y) / (t - s); y - (z - y) / (t - s) * s] | _ => [] end).
  intros a b ts N L. destruct ts as [|s [|t ts]]; cbn [length] in L; try lia. cbn [map].
  split; [reflexivity|]. intros q _.
  assert (D : t - s <> 0). { inversion N as [|? ? Na _]; subst. intros Z. apply Na. left. lra. }
  replace ((a + b * t - (a + b * s)) / (t - s)) with b by (field; exact D).
  change ((s, a + b * s) :: (t, a + b * t) :: map (fun t0 => (t0, a + b * t0)) ts) with (map (fun t0 => (t0, a + b * t0)) (s :: t :: ts)).
  rewrite misfit_exact; [apply misfit_pos|]. intros r I. apply in_map_iff in I. destruct I as (w & <- & _). cbn. ring.
Qed.

(** ** The stored points of a motion with constant velocity *)
Lemma col_in {A} (l : list A) i a : col_at l i = Ok a -> In a l.
Proof.
  unfold col_at, nthZ. destruct (i <? 0)%Z; [discriminate|]. destruct (nth_error _ _) eqn:E; [|discriminate]. intros K. injection K as <-. eapply nth_error_In, E.
Qed.
Lemma line_moved x d a s : V3 (v0 (moved x d a) + v0 d * s) (v1 (moved x d a) + v1 d * s) (v2 (moved x d a) + v2 d * s) = moved x d (a + s).
Proof. unfold moved. cbn [v0 v1 v2]. apply V3_eq; ring. Qed.
Lemma moved_0 x d : moved x d 0 = x.
Proof. unfold moved. rewrite !Rmult_0_r, !Rplus_0_r. destruct x; reflexivity. Qed.
Section Constant.
Context {U : Type} (c : rk45 R) (f : vec3 R -> U -> res (vec3 R)) (ut : list U) (x0 d : vec3 R) (steps ms : Z) (horizon : R).
Hypothesis Hmin : 0 < rk_hmin c.
Hypothesis Hf : forall s u, In u ut -> f (moved x0 d s) u = Ok d.
Definition on_line (p : R * vec3 R) : Prop := snd p = moved x0 d ((1 + delta) * fst p).
Fixpoint falling (l : list (R * vec3 R)) : Prop :=
  match l with [] => True | p :: l' => (forall q, In q l' -> fst q < fst p) /\ falling l' end.
Lemma adapt_pos h r h' : rk45_adapt c h r = Ok h' -> 0 < h'.
Proof.
  unfold rk45_adapt, clampable. cbn [nlt RNum]. destruct (Rltb (rk_hmax c) (rk_hmin c)) eqn:E; [discriminate|]. apply Rltb_false in E.
  cbn [negb]. intros K. injection K as <-. match goal with |- 0 < fclamp ?z _ _ => generalize z end. intros z. unfold fclamp. cbn [nlt RNum].
  destruct (Rltb z (rk_hmin c)) eqn:E1; [lra|]. apply Rltb_false in E1. destruct (Rltb (rk_hmax c) z) eqn:E2; lra.
Qed.
Lemma constant_loop : forall fuel x t h st iter st',
  0 < h -> Forall on_line st -> falling st -> on_line (t, x) -> (exists p l, st = p :: l /\ fst p = t) ->
  rk45_loop fuel c f ut steps ms horizon x t h st iter = Ok (Some st') -> Forall on_line st' /\ falling st'.
Proof.
  induction fuel as [|fuel IH]; intros x t h st iter st' H F D X HD; [discriminate|]. cbn [rk45_loop].
  destruct (rk45_index _ _ _); cbn [bind]; try discriminate. destruct (col_at _ _) as [u| | |] eqn:CU; cbn [bind]; try discriminate.
  apply col_in in CU.
  rewrite (step_line f x u h d H) by (intros s; unfold on_line in X; cbn [fst snd] in X; rewrite X, line_moved; apply Hf, CU). cbn [bind].
  set (xn := V3 _ _ _). set (r := delta * sup3 d).
  destruct (rk45_accept c r) eqn:A; cbn [bind].
  - destruct (_ <? _)%Z; cbn [bind]; try discriminate. destruct (rk45_adapt c h r) as [h'| | |] eqn:AE; cbn [bind]; try discriminate.
    apply adapt_pos in AE.
    assert (F' : Forall on_line ((t + h, xn) :: st)).
    { constructor; [|exact F]. unfold on_line in *. cbn [fst snd] in *. subst xn. rewrite X. unfold moved. cbn [v0 v1 v2]. f_equal; ring. }
    assert (D' : falling ((t + h, xn) :: st)).
    { split; [|exact D]. destruct HD as (p & l & -> & HD). destruct D as (D & _). cbn [fst]. intros q [<-|I]; [lra|]. specialize (D q I). lra. }
    change (t + h)%num with (t + h). destruct (_ =? _)%Z; [discriminate|].
    destruct ((horizon <? (t + h)%R)%num || almost_equal (t + h) horizon)%bool eqn:FL; [intros E; injection E as <-; split; assumption|].
    apply IH; try assumption.
    + apply orb_false_elim in FL as [L1 L2]. cbn [nlt RNum] in L1. apply Rltb_false in L1. apply (proj1 (almost_equal_Rf _ _)) in L2.
      cbn [negb andb]. match goal with |- context [if ?q then _ else _] => destruct q end; [|exact AE].
      rrn. destruct (Req_dec (t + h) horizon) as [Q|]; [|lra]. rewrite Q, Rminus_eq_0, Rabs_R0 in L2. lra.
    + inversion F'; assumption.
    + eexists _, _; split; reflexivity.
  - destruct (rk45_adapt c h r) as [h'| | |] eqn:AE; cbn [bind]; try discriminate. apply adapt_pos in AE.
    destruct (_ =? _)%Z; [discriminate|].
    destruct ((horizon <? t)%num || almost_equal t horizon)%bool eqn:FL; [intros E; injection E as <-; split; assumption|].
    apply IH; try assumption.
    apply orb_false_elim in FL as [L1 L2]. cbn [nlt RNum] in L1. apply Rltb_false in L1. apply (proj1 (almost_equal_Rf _ _)) in L2.
    cbn [negb andb]. match goal with |- context [if ?q then _ else _] => destruct q end; [|exact AE].
    rrn. destruct (Req_dec t horizon) as [Q|]; [|lra]. rewrite Q, Rminus_eq_0, Rabs_R0 in L2. lra.
Qed.
End Constant.
Lemma falling_nodup l : falling l -> NoDup (map fst l).
Proof.
  induction l as [|p l IH]; intros D; [constructor|]. destruct D as (D & D'). cbn [map]. constructor; [|apply IH; exact D'].
  intros I. apply in_map_iff in I. destruct I as (q & E & I). specialize (D q I). lra.
Qed.
Lemma constant_stored {U} (c : rk45 R) (f : vec3 R -> U -> res (vec3 R)) x0 d ut dt horizon st :
  0 < rk_hmin c -> 0 < rk_hmax c + rk_hmin c -> (forall s u, In u ut -> f (moved x0 d s) u = Ok d) -> rk45_solve c f x0 ut dt horizon = Ok (Some st) ->
  Forall (on_line x0 d) st /\ NoDup (map fst st).
Proof.
  intros Hmin Hs Hf. unfold rk45_solve. destruct (num_steps dt horizon) as [n| | |]; cbn [bind]; try discriminate.
  destruct (to_u32 _) as [m| | |]; cbn [bind]; try discriminate. destruct (_ =? 0)%Z; [discriminate|]. intros E.
  assert (X : on_line x0 d (0, x0)). { unfold on_line, moved. cbn [fst snd]. rewrite !Rmult_0_r, !Rplus_0_r. destruct x0; reflexivity. }
  apply (constant_loop c f ut x0 d) in E; auto.
  - destruct E as (A & B). split; [exact A|apply falling_nodup; exact B].
  - change ((rk_hmax c + rk_hmin c) / n2)%num with ((rk_hmax c + rk_hmin c) / 2). lra.
  - cbn. split; [intros q []|exact I].
  - eexists _, _; split; reflexivity.
Qed.
Lemma fit_row (fit : list (R * R) -> list R) (st : list (R * vec3 R)) (get : vec3 R -> R) a b : fits_lines fit ->
  (forall p, In p st -> get (snd p) = a + b * fst p) -> NoDup (map fst st) -> (5 <= length st)%nat ->
  forall t, polyval (fit (map (fun p => (fst p, get (snd p))) (rev st))) t = a + b * t.
Proof.
  intros Hfit G N L t.
  assert (E : map (fun p => (fst p, get (snd p))) (rev st) = map (fun t => (t, a + b * t)) (map fst (rev st))).
  { rewrite map_map. apply map_ext_in. intros p I. rewrite (G p); [reflexivity|]. apply in_rev. exact I. }
  rewrite E. assert (N' : NoDup (map fst (rev st))) by (rewrite map_rev; apply NoDup_rev; exact N).
  assert (L' : (5 <= length (map fst (rev st)))%nat) by (rewrite map_length, rev_length; exact L).
  apply (line_fit a b (map fst (rev st))); try assumption. apply Hfit; assumption.
Qed.
Lemma c80_constant {U} fit (c : rk45 R) (f : vec3 R -> U -> res (vec3 R)) x0 d ut dt horizon xt :
  fits_lines fit -> 0 < rk_hmin c -> 0 < rk_hmax c + rk_hmin c -> (forall s u, In u ut -> f (moved x0 d s) u = Ok d) ->
  rk45_trajectory fit c f x0 ut dt horizon = Ok (Some xt) ->
  exists n, num_steps dt horizon = Ok n /\ xt = map (fun t => moved x0 d ((1 + delta) * t)) (linspace horizon n).
Proof.
  intros Hfit Hmin Hs Hf. unfold rk45_trajectory. destruct (rk45_solve _ _ _ _ _ _) as [[st|]| | |] eqn:S; cbn [bind]; try discriminate.
  2:{ destruct (num_steps _ _); discriminate. }
  destruct (num_steps dt horizon) as [n| | |]; cbn [bind]; try discriminate. unfold rk45_columns. destruct (Z.leb_spec (lenZ st) 4); [discriminate|].
  cbn [bind]. intros E. injection E as <-. exists n. split; [reflexivity|]. apply map_ext. intros t.
  destruct (constant_stored c f x0 d ut dt horizon st Hmin Hs Hf S) as (A & N). rewrite Forall_forall in A.
  assert (L : (5 <= length st)%nat) by (unfold lenZ in *; lia). unfold moved.
  rewrite (fit_row fit st v0 (v0 x0) (v0 d * (1 + delta)) Hfit), (fit_row fit st v1 (v1 x0) (v1 d * (1 + delta)) Hfit), (fit_row fit st v2 (v2 x0) (v2 d * (1 + delta)) Hfit);
    try assumption; try (intros p I; rewrite (A p I); unfold moved; cbn [v0 v1 v2]; ring). f_equal; ring.
Qed.

(** ** A fixed step that divides the horizon *)
Section Fixed.
Context {U : Type} (c : rk45 R) (f : vec3 R -> U -> res (vec3 R)) (ut : list U) (x0 d : vec3 R) (steps ms : Z) (h0 horizon : R).
Hypothesis H0 : 1 / 1000000000000 <= h0.
Hypothesis Hmin : rk_hmin c = h0.
Hypothesis Hmax : rk_hmax c = h0.
Hypothesis Hf : forall s u, In u ut -> f (moved x0 d s) u = Ok d.
Hypothesis Hr : delta * sup3 d < rk_eps c.
Hypothesis Hs : (1 <= steps <= two32)%Z.
Hypothesis Hu : (steps <= lenZ ut)%Z.
Hypothesis HI : (0 <= rk_iter c < two32)%Z.
Lemma fixed_loop k : forall fuel x st iter t,
  (k < fuel)%nat -> (0 <= iter)%Z -> (iter + Z.of_nat k < rk_iter c)%Z -> (lenZ st + Z.of_nat k < ms)%Z ->
  0 <= t -> t + INR (S k) * h0 = horizon -> (exists s, x = moved x0 d s) ->
  exists st', rk45_loop fuel c f ut steps ms horizon x t h0 st iter = Ok (Some st') /\ length st' = (length st + S k)%nat.
Proof.
  induction k as [|k IH]; intros fuel x st iter t Hk I IT M T0 T1 X; destruct X as (s0 & ->); (destruct fuel as [|fuel]; [lia|]); cbn [rk45_loop].
  - cbn [INR] in T1.
    destruct (index_R steps t horizon Hs ltac:(lra) ltac:(lra)) as (i & -> & Hi). cbn [bind].
    destruct (col_total ut steps Hs Hu i Hi) as (u & CU). rewrite CU. apply col_in in CU. cbn [bind].
    rewrite (step_line f (moved x0 d s0) u h0 d) by (lra || (intros s; rewrite line_moved; apply Hf, CU)). rewrite line_moved. cbn [bind]. rewrite accept_R by exact Hr.
    destruct (Z.ltb_spec (lenZ st) ms); [|lia]. cbn [bind].
    destruct (adapt_range c h0 (delta * sup3 d) ltac:(lra)) as (h' & AE & AR). rewrite AE. cbn [bind].
    destruct (Z.eqb_spec iter (rk_iter c)); [lia|].
    change (t + h0)%num with (t + h0). replace (t + h0) with horizon by lra.
    assert (E : almost_equal horizon horizon = true). { apply (proj2 (almost_equal_R _ _)). rewrite Rminus_eq_0, Rabs_R0. lra. }
    rewrite E, orb_true_r. eexists. split; [reflexivity|]. cbn [length]. lia.
  - assert (P : 0 <= INR k * h0) by (apply Rmult_le_pos; [apply pos_INR|lra]). assert (TK : t + h0 + INR (S k) * h0 = horizon) by (rewrite S_INR in T1; lra).
    rewrite S_INR in TK.
    destruct (index_R steps t horizon Hs ltac:(lra) ltac:(lra)) as (i & -> & Hi). cbn [bind].
    destruct (col_total ut steps Hs Hu i Hi) as (u & CU). rewrite CU. apply col_in in CU. cbn [bind].
    rewrite (step_line f (moved x0 d s0) u h0 d) by (lra || (intros s; rewrite line_moved; apply Hf, CU)). rewrite line_moved. cbn [bind]. rewrite accept_R by exact Hr.
    destruct (Z.ltb_spec (lenZ st) ms); [|lia]. cbn [bind].
    destruct (adapt_range c h0 (delta * sup3 d) ltac:(lra)) as (h' & AE & AR). rewrite Hmin, Hmax in AR.
    assert (h' = h0) by lra. subst h'. rewrite AE. cbn [bind].
    destruct (Z.eqb_spec iter (rk_iter c)); [lia|]. unfold u32. rewrite Z.mod_small by lia.
    change (t + h0)%num with (t + h0). rewrite flag_R by lra. cbn [negb andb].
    match goal with |- context [if ?q then _ else h0] => replace q with false by (symmetry; apply (proj2 (Rltb_false horizon (t + h0 + h0))); lra) end.
    match goal with |- context [rk45_loop fuel c f ut steps ms horizon ?x' ?t' _ ?s' ?i'] =>
      destruct (IH fuel x' s' i' t') as (st' & -> & L); [lia|lia|lia|unfold lenZ in *; cbn [length]; lia|lra|rewrite S_INR; lra|eexists; reflexivity|] end.
    eexists. split; [reflexivity|]. rewrite L. cbn [length]. lia.
Qed.
End Fixed.
Lemma fixed_solve {U} (c : rk45 R) (f : vec3 R -> U -> res (vec3 R)) ut d steps h0 horizon dt x k :
  1 / 1000000000000 <= h0 -> rk_hmin c = h0 -> rk_hmax c = h0 -> (forall s u, In u ut -> f (moved x d s) u = Ok d) -> delta * sup3 d < rk_eps c ->
  num_steps dt horizon = Ok steps -> (1 <= steps <= lenZ ut)%Z -> (1 <= k)%Z -> horizon = IZR k * h0 -> (k <= rk_iter c < two32 - 1)%Z ->
  exists st, rk45_solve c f x ut dt horizon = Ok (Some st) /\ lenZ st = (k + 1)%Z.
Proof.
  intros H0 Hmin Hmax Hf Hr N Hs K Hh IT.
  assert (SB : (steps < two32)%Z). { pose proof N as N'. rewrite steps_R in N'. destruct (Z.ltb_spec (Zfloor (Rabs (horizon / dt))) two32); [|discriminate]. injection N' as <-. assumption. }
  unfold rk45_solve. rewrite N. cbn [bind]. rewrite Hmin, Hmax.
  assert (M : to_u32 (horizon / h0)%num = Ok k).
  { unfold to_u32. rrn. replace (horizon / h0) with (IZR k) by (subst horizon; field; lra). rewrite Ztrunc_IZR.
    destruct (Z.leb_spec 0 k); [|lia]. destruct (Z.ltb_spec k two32); [reflexivity|lia]. }
  rewrite M. cbn [bind]. assert (UE : u32 (k + 1) = (k + 1)%Z) by (unfold u32; apply Z.mod_small; lia).
  rewrite UE. destruct (Z.eqb_spec (k + 1) 0) as [?|?H]; [lia|].
  change (@n0 R _) with 0. replace ((h0 + h0) / n2)%num with h0 by (unfold n2; rrn; field).
  destruct (fixed_loop c f ut x d steps (k + 1) h0 horizon H0 Hmin Hmax Hf Hr ltac:(lia) ltac:(lia) ltac:(lia) (Z.to_nat (k - 1))
    (S (Z.to_nat (rk_iter c))) x [(0, x)] 0%Z 0) as (st & E & L); try lia; try lra.
  - unfold lenZ. cbn [length]. lia.
  - rewrite INR_IZR_INZ. replace (Z.of_nat (S (Z.to_nat (k - 1)))) with k by lia. lra.
  - exists 0. symmetry. apply moved_0.
  - exists st. split; [exact E|]. unfold lenZ. rewrite L. cbn [length]. lia.
Qed.
Lemma c80_few {U} fit (c : rk45 R) (f : vec3 R -> U -> res (vec3 R)) ut d steps h0 horizon dt x k :
  1 / 1000000000000 <= h0 -> rk_hmin c = h0 -> rk_hmax c = h0 -> (forall s u, In u ut -> f (moved x d s) u = Ok d) -> delta * sup3 d < rk_eps c ->
  num_steps dt horizon = Ok steps -> (1 <= steps <= lenZ ut)%Z -> (1 <= k)%Z -> horizon = IZR k * h0 -> (k <= rk_iter c < two32 - 1)%Z ->
  (k <= 3)%Z -> rk45_trajectory fit c f x ut dt horizon = Throw EArma.
Proof.
  intros H0 Hmin Hmax Hf Hr N Hs K Hh IT K3. destruct (fixed_solve c f ut d steps h0 horizon dt x k) as (st & E & L); auto.
  unfold rk45_trajectory. rewrite E, N. cbn [bind]. unfold rk45_columns. destruct (Z.leb_spec (lenZ st) 4); [reflexivity|lia].
Qed.
Lemma c80_enough {U} fit (c : rk45 R) (f : vec3 R -> U -> res (vec3 R)) ut d steps h0 horizon dt x k : fits_lines fit ->
  1 / 1000000000000 <= h0 -> rk_hmin c = h0 -> rk_hmax c = h0 -> (forall s u, In u ut -> f (moved x d s) u = Ok d) -> delta * sup3 d < rk_eps c ->
  num_steps dt horizon = Ok steps -> (1 <= steps <= lenZ ut)%Z -> horizon = IZR k * h0 -> (4 <= k <= rk_iter c)%Z -> (rk_iter c < two32 - 1)%Z ->
  exists xt, rk45_trajectory fit c f x ut dt horizon = Ok (Some xt).
Proof.
  intros Hfit H0 Hmin Hmax Hf Hr N Hs Hh K IT. destruct (fixed_solve c f ut d steps h0 horizon dt x k) as (st & E & L); auto; try lia.
  unfold rk45_trajectory. rewrite E, N. cbn [bind]. unfold rk45_columns. destruct (Z.leb_spec (lenZ st) 4); [lia|]. cbn [bind]. eauto.
Qed.

(** ** The columns of the result *)
Lemma nth_seq n i : (i < n)%nat -> nth_error (seq 0 n) i = Some i.
Proof.
  intros H. rewrite (nth_error_nth' _ 0%nat) by (rewrite seq_length; exact H). rewrite seq_nth by exact H. reflexivity.
Qed.
Lemma linspace_nth (h : R) n i : (2 <= n)%Z -> (Z.of_nat i < n)%Z ->
  nth_error (linspace h n) i = Some (IZR (Z.of_nat i) * h / IZR (n - 1)).
Proof.
  intros N I. unfold linspace. rewrite (map_nth_error _ i _ (nth_seq (Z.to_nat n) i ltac:(lia))). f_equal.
  assert (P : IZR (n - 1) <> 0) by (apply IZR_neq; lia).
  destruct (Z.eqb_spec (Z.of_nat i) (n - 1)) as [->|_]; rrn; field; exact P.
Qed.
Lemma linspace_one (h : R) : linspace h 1 = [h].
Proof. reflexivity. Qed.
Lemma linspace_len (h : R) n : (0 <= n)%Z -> lenZ (linspace h n) = n.
Proof. intros H. unfold linspace, lenZ. rewrite map_length, seq_length. lia. Qed.

(** ** Co-states with a constant rate *)
Section CoConstant.
Context {U : Type} (c : rk45 R) (func : costate (T := R)) (fdx : vec3 R -> U -> mat3 R) (xt : list (vec3 R)) (ut : list U) (edx bdx : list (vec3 R))
  (rhoT d : vec3 R) (steps ms : Z) (horizon : R).
Hypothesis Hmin : 0 < rk_hmin c.
Hypothesis Hf : forall rho e b x u, In e edx -> In b bdx -> In x xt -> In u ut -> func rho e b (fdx x u) = d.
Definition on_line_back (p : R * vec3 R) : Prop := snd p = moved rhoT d ((1 + delta) * (fst p - horizon)).
Fixpoint rising (l : list (R * vec3 R)) : Prop :=
  match l with [] => True | p :: l' => (forall q, In q l' -> fst p < fst q) /\ rising l' end.
Lemma co_constant_loop : forall fuel rho t h st iter st',
  0 < h -> Forall on_line_back st -> rising st -> on_line_back (t, rho) -> (exists p l, st = p :: l /\ fst p = t) ->
  rk45_co_loop fuel c func fdx xt ut edx bdx steps ms horizon rho t h st iter = Ok (Some st') -> Forall on_line_back st' /\ rising st'.
Proof.
  induction fuel as [|fuel IH]; intros rho t h st iter st' H F D X HD; [discriminate|]. cbn [rk45_co_loop].
  destruct (rk45_index _ _ _); cbn [bind]; try discriminate.
  destruct (col_at edx _) as [e| | |] eqn:E1; cbn [bind]; try discriminate. destruct (col_at bdx _) as [b| | |] eqn:E2; cbn [bind]; try discriminate.
  destruct (col_at xt _) as [x| | |] eqn:E3; cbn [bind]; try discriminate. destruct (col_at ut _) as [u| | |] eqn:E4; cbn [bind]; try discriminate.
  apply col_in in E1, E2, E3, E4.
  unfold rk45_co_step. rewrite (stages_line _ rho d (- h)%num h) by (lra || (intros; rewrite Hf by assumption; reflexivity)). cbn [bind].
  set (xn := V3 _ _ _). match goal with |- context [rk45_accept c ?q] => set (r := q) end.
  destruct (rk45_accept c r) eqn:A; cbn [bind].
  - destruct (_ <? _)%Z; cbn [bind]; try discriminate. destruct (rk45_adapt c h r) as [h'| | |] eqn:AE; cbn [bind]; try discriminate.
    apply (adapt_pos c Hmin) in AE.
    change (t - h)%num with (t - h).
    assert (F' : Forall on_line_back ((t - h, xn) :: st)).
    { constructor; [|exact F]. unfold on_line_back in *. cbn [fst snd] in *. subst xn. rewrite X. unfold moved. cbn [v0 v1 v2]. rrn. apply V3_eq; ring. }
    assert (D' : rising ((t - h, xn) :: st)).
    { split; [|exact D]. destruct HD as (p & l & -> & HD). destruct D as (D & _). cbn [fst]. intros q [<-|I]; [lra|]. specialize (D q I). lra. }
    destruct (_ =? _)%Z; [discriminate|].
    destruct (((t - h)%R <? n0)%num || almost_equal (t - h) n0)%bool eqn:FL; [intros E; injection E as <-; split; assumption|].
    apply IH; try assumption.
    + apply orb_false_elim in FL as [L1 L2]. cbn [nlt RNum] in L1. apply Rltb_false in L1. apply (proj1 (almost_equal_Rf _ _)) in L2.
      cbn [negb andb]. match goal with |- context [if ?q then _ else _] => destruct q end; [|exact AE].
      rrn. change (@n0 R _) with 0 in *. destruct (Req_dec (t - h) 0) as [Q|]; [|lra]. rewrite Q, Rminus_eq_0, Rabs_R0 in L2. lra.
    + inversion F'; assumption.
    + eexists _, _; split; reflexivity.
  - destruct (rk45_adapt c h r) as [h'| | |] eqn:AE; cbn [bind]; try discriminate. apply (adapt_pos c Hmin) in AE.
    destruct (_ =? _)%Z; [discriminate|].
    destruct ((t <? n0)%num || almost_equal t n0)%bool eqn:FL; [intros E; injection E as <-; split; assumption|].
    apply IH; try assumption.
    apply orb_false_elim in FL as [L1 L2]. cbn [nlt RNum] in L1. apply Rltb_false in L1. apply (proj1 (almost_equal_Rf _ _)) in L2.
    cbn [negb andb]. match goal with |- context [if ?q then _ else _] => destruct q end; [|exact AE].
    rrn. change (@n0 R _) with 0 in *. destruct (Req_dec t 0) as [Q|]; [|lra]. rewrite Q, Rminus_eq_0, Rabs_R0 in L2. lra.
Qed.
End CoConstant.
Lemma rising_nodup l : rising l -> NoDup (map fst l).
Proof.
  induction l as [|p l IH]; intros D; [constructor|]. destruct D as (D & D'). cbn [map]. constructor; [|apply IH; exact D'].
  intros I. apply in_map_iff in I. destruct I as (q & E & I). specialize (D q I). lra.
Qed.
Lemma co_constant_stored {U} (c : rk45 R) func (fdx : vec3 R -> U -> mat3 R) rhoT d xt ut edx bdx dt horizon st :
  0 < rk_hmin c -> (forall rho e b x u, In e edx -> In b bdx -> In x xt -> In u ut -> func rho e b (fdx x u) = d) ->
  rk45_co_solve c func fdx rhoT xt ut edx bdx dt horizon = Ok (Some st) ->
  Forall (on_line_back rhoT d horizon) st /\ NoDup (map fst st).
Proof.
  intros Hmin Hf. unfold rk45_co_solve. destruct (num_steps dt horizon) as [n| | |]; cbn [bind]; try discriminate.
  destruct (to_u32 _) as [m| | |]; cbn [bind]; try discriminate. destruct (_ =? 0)%Z; [discriminate|]. intros E.
  assert (X : on_line_back rhoT d horizon (horizon, rhoT)).
  { unfold on_line_back, moved. cbn [fst snd]. rewrite Rminus_eq_0, !Rmult_0_r, !Rplus_0_r. destruct rhoT; reflexivity. }
  apply (co_constant_loop c func fdx xt ut edx bdx rhoT d) in E; auto.
  - destruct E as (A & B). split; [exact A|apply rising_nodup; exact B].
  - cbn. split; [intros q []|exact I].
  - eexists _, _; split; reflexivity.
Qed.
Lemma c80_costates {U} fit (c : rk45 R) func (fdx : vec3 R -> U -> mat3 R) rhoT d xt ut edx bdx dt horizon rt :
  fits_lines fit -> 0 < rk_hmin c -> (forall rho e b x u, In e edx -> In b bdx -> In x xt -> In u ut -> func rho e b (fdx x u) = d) ->
  rk45_costates fit c func fdx rhoT xt ut edx bdx dt horizon = Ok (Some rt) ->
  exists n, num_steps dt horizon = Ok n /\ rt = map (fun t => moved rhoT d ((1 + delta) * (t - horizon))) (linspace horizon n).
Proof.
  intros Hfit Hmin Hf. unfold rk45_costates. destruct (rk45_co_solve _ _ _ _ _ _ _ _ _ _) as [[st|]| | |] eqn:S; cbn [bind]; try discriminate.
  2:{ destruct (num_steps _ _); discriminate. }
  destruct (num_steps dt horizon) as [n| | |]; cbn [bind]; try discriminate. unfold rk45_columns. destruct (Z.leb_spec (lenZ st) 4); [discriminate|].
  cbn [bind]. intros E. injection E as <-. exists n. split; [reflexivity|]. apply map_ext. intros t.
  destruct (co_constant_stored c func fdx rhoT d xt ut edx bdx dt horizon st Hmin Hf S) as (A & N). rewrite Forall_forall in A.
  assert (L : (5 <= length st)%nat) by (unfold lenZ in *; lia). unfold moved.
  rewrite (fit_row fit st v0 (v0 rhoT - v0 d * (1 + delta) * horizon) (v0 d * (1 + delta)) Hfit),
    (fit_row fit st v1 (v1 rhoT - v1 d * (1 + delta) * horizon) (v1 d * (1 + delta)) Hfit),
    (fit_row fit st v2 (v2 rhoT - v2 d * (1 + delta) * horizon) (v2 d * (1 + delta)) Hfit);
    try assumption; try (intros p I; rewrite (A p I); unfold moved; cbn [v0 v1 v2]; ring). apply V3_eq; ring.
Qed.

(** ** The theorems on columns *)
Lemma steps_nonneg (dt horizon : R) n : num_steps dt horizon = Ok n -> (0 <= n)%Z.
Proof.
  rewrite steps_R. destruct (_ <? _)%Z; [|discriminate]. intros E. injection E as <-. apply Zfloor_lub. apply Rabs_pos.
Qed.
Lemma c80_columns {U} fit (c : rk45 R) (f : vec3 R -> U -> res (vec3 R)) x0 d ut dt horizon n xt :
  fits_lines fit -> 0 < rk_hmin c -> 0 < rk_hmax c + rk_hmin c -> (forall s u, In u ut -> f (moved x0 d s) u = Ok d) -> num_steps dt horizon = Ok n ->
  rk45_trajectory fit c f x0 ut dt horizon = Ok (Some xt) ->
  lenZ xt = n /\ (n = 1%Z -> xt = [moved x0 d ((1 + delta) * horizon)]) /\
  forall i, (2 <= n)%Z -> (Z.of_nat i < n)%Z -> nth_error xt i = Some (moved x0 d ((1 + delta) * (IZR (Z.of_nat i) * horizon / IZR (n - 1)))).
Proof.
  intros Hfit Hmin Hs Hf N E. destruct (c80_constant fit c f x0 d ut dt horizon xt Hfit Hmin Hs Hf E) as (m & N' & ->).
  rewrite N in N'. injection N' as <-. repeat split.
  - unfold lenZ. rewrite map_length. apply linspace_len. eapply steps_nonneg, N.
  - intros ->. rewrite linspace_one. reflexivity.
  - intros i N2 I. rewrite (map_nth_error _ i _ (linspace_nth horizon n i N2 I)). reflexivity.
Qed.
Lemma c80_co_columns {U} fit (c : rk45 R) func (fdx : vec3 R -> U -> mat3 R) rhoT d xt ut edx bdx dt horizon n rt :
  fits_lines fit -> 0 < rk_hmin c -> (forall rho e b x u, In e edx -> In b bdx -> In x xt -> In u ut -> func rho e b (fdx x u) = d) ->
  num_steps dt horizon = Ok n -> rk45_costates fit c func fdx rhoT xt ut edx bdx dt horizon = Ok (Some rt) ->
  lenZ rt = n /\ forall i, (2 <= n)%Z -> (Z.of_nat i < n)%Z ->
    nth_error rt i = Some (moved rhoT d ((1 + delta) * (IZR (Z.of_nat i) * horizon / IZR (n - 1) - horizon))).
Proof.
  intros Hfit Hmin Hf N E. destruct (c80_costates fit c func fdx rhoT d xt ut edx bdx dt horizon rt Hfit Hmin Hf E) as (m & N' & ->).
  rewrite N in N'. injection N' as <-. repeat split.
  - unfold lenZ. rewrite map_length. apply linspace_len. eapply steps_nonneg, N.
  - intros i N2 I. rewrite (map_nth_error _ i _ (linspace_nth horizon n i N2 I)). reflexivity.
Qed.
Lemma c80_omni fit (c : rk45 R) x0 vx vy ut dt horizon n xt gam : twist_motion x0 vx vy 0 gam ->
  fits_lines fit -> 0 < rk_hmin c -> 0 < rk_hmax c + rk_hmin c -> (forall u, In u ut -> u = V3 vx vy 0) -> num_steps dt horizon = Ok n ->
  rk45_trajectory fit c (rb_f omni) x0 ut dt horizon = Ok (Some xt) ->
  forall i, (2 <= n)%Z -> (Z.of_nat i < n)%Z -> nth_error xt i = Some (gam ((1 + delta) * (IZR (Z.of_nat i) * horizon / IZR (n - 1)))).
Proof.
  intros G Hfit Hmin Hs Hu N E i N2 I. rewrite (motion_unique _ _ _ _ _ G).
  destruct (c80_columns fit c (rb_f omni) x0 (omni_f x0 (V3 vx vy 0)) ut dt horizon n xt Hfit Hmin Hs) as (_ & _ & C); auto.
  - intros s u U'. rewrite (Hu u U'). cbn [rb_f omni]. f_equal. unfold omni_f, moved. cbn [v0 v1 v2]. rewrite Rmult_0_l, Rplus_0_r. reflexivity.
  - rewrite (C i N2 I). f_equal. unfold moved, omni_f, flow. cbn [v0 v1 v2]. rrn. try (destruct (Req_EM_T 0 0)); try lra; apply V3_eq; ring.
Qed.
Lemma omni_ex s (u : vec3 R) : In u (repeat (V3 1 0 0) 5) -> rb_f omni (moved (V3 0 0 0) (V3 1 0 0) s) u = Ok (V3 1 0 0).
Proof.
  intros I. apply repeat_spec in I. subst u. cbn [rb_f omni]. f_equal. unfold omni_f, moved. cbn [v0 v1 v2]. rrn.
  rewrite Rmult_0_l, Rplus_0_r, cos_0, sin_0. apply V3_eq; ring.
Qed.
Lemma sup_ex : delta * sup3 (V3 1 0 0) < 1 / 100.
Proof. unfold sup3. cbn [v0 v1 v2]. rewrite Rabs_R1, Rabs_R0. rewrite !(Rmax_left 1 0) by lra. unfold delta. lra. Qed.
Lemma c80_example : exists fit xt, fits_lines fit /\
  rk45_trajectory fit (mkRK45 (1 / 10) (1 / 10) (1 / 100) 100) (rb_f omni) (V3 0 0 0) (repeat (V3 1 0 0) 5) (1 / 10) (1 / 2) = Ok (Some xt) /\
  nth_error xt 0 = Some (V3 0 0 0) /\ nth_error xt 4 = Some (V3 ((1 + delta) / 2) 0 0).
Proof.
  destruct fits_lines_inhabited as (fit & Hfit). exists fit.
  destruct (c80_enough fit (mkRK45 (1 / 10) (1 / 10) (1 / 100) 100) (rb_f omni) (repeat (V3 1 0 0) 5) (V3 1 0 0) 5 (1 / 10) (1 / 2) (1 / 10) (V3 0 0 0) 5 Hfit) as (xt & E);
    try exact omni_ex; try exact sup_ex; try exact steps_example; cbn [rk_hmin rk_hmax rk_eps rk_iter]; try lra; try (unfold two32; cbn; lia); try reflexivity.
  exists xt. split; [exact Hfit|]. split; [exact E|].
  destruct (c80_columns fit (mkRK45 (1 / 10) (1 / 10) (1 / 100) 100) _ _ (V3 1 0 0) _ _ _ 5 _ Hfit ltac:(cbn [rk_hmin]; lra) ltac:(cbn [rk_hmin rk_hmax]; lra) omni_ex steps_example E) as (_ & _ & C).
  split; (rewrite C by (cbn; lia); f_equal; unfold moved; cbn; apply V3_eq; field).
Qed.
Lemma c80_example_few : forall fit,
  rk45_trajectory fit (mkRK45 (1 / 4) (1 / 4) (1 / 100) 100) (rb_f omni) (V3 0 0 0) (repeat (V3 1 0 0) 5) (1 / 10) (1 / 2) = Throw EArma.
Proof.
  intros fit. apply (c80_few fit _ _ _ (V3 1 0 0) 5 (1 / 4) _ _ _ 2); try exact omni_ex; try exact sup_ex; try exact steps_example;
    cbn [rk_hmin rk_hmax rk_eps rk_iter]; try lra; try (unfold two32; cbn; lia); try reflexivity.
Qed.
Lemma c80_example_co : forall rho e b x u : vec3 R, In e (repeat (V3 1 2 3) 5) -> In b (repeat (V3 0 0 0) 5) -> In x (repeat (V3 0 0 0) 5) ->
  In u (repeat (V3 0 0 0) 5) -> rhodot rho e b (omni_fdx x u) = V3 (-1) (-2) (-3).
Proof.
  intros rho e b x u A B C D. apply repeat_spec in A, B, C, D. subst. unfold rhodot, omni_fdx, vsub, vneg, mtvmul, vdot, col0, col1, col2. cbn [v0 v1 v2 r0 r1 r2]. rrn. rewrite ?sin_0, ?cos_0.
  apply V3_eq; ring.
Qed.

(** ** Inverted step limits *)
Lemma c49_never {T} {NT : Num T} {U} (c : rk45 T) (f : vec3 T -> U -> res (vec3 T)) x ut dt horizon r :
  nlt (rk_hmax c) (rk_hmin c) = true -> rk45_solve c f x ut dt horizon <> Ok r.
Proof.
  intros H. unfold rk45_solve. destruct (num_steps _ _); cbn [bind]; try discriminate. destruct (to_u32 _); cbn [bind]; try discriminate.
  destruct (_ =? 0)%Z; [discriminate|]. cbn [rk45_loop]. destruct (rk45_index _ _ _); cbn [bind]; try discriminate.
  destruct (col_at _ _); cbn [bind]; try discriminate. destruct (rk45_step _ _ _ _) as [[xn e]| | |]; cbn [bind]; try discriminate.
  match goal with |- context [bind ?q _] => destruct q as [[[x' t'] s']| | |] end; cbn [bind]; try discriminate.
  unfold rk45_adapt, clampable. rewrite H. discriminate.
Qed.
Lemma c49_co_never {T} {NT : Num T} {U} (c : rk45 T) func (fdx : vec3 T -> U -> mat3 T) rhoT xt ut edx bdx dt horizon r :
  nlt (rk_hmax c) (rk_hmin c) = true -> rk45_co_solve c func fdx rhoT xt ut edx bdx dt horizon <> Ok r.
Proof.
  intros H. unfold rk45_co_solve. destruct (num_steps _ _); cbn [bind]; try discriminate. destruct (to_u32 _); cbn [bind]; try discriminate.
  destruct (_ =? 0)%Z; [discriminate|]. cbn [rk45_co_loop]. destruct (rk45_index _ _ _); cbn [bind]; try discriminate.
  do 4 (destruct (col_at _ _); cbn [bind]; try discriminate). destruct (rk45_co_step _ _ _ _ _ _) as [[xn e]| | |]; cbn [bind]; try discriminate.
  match goal with |- context [bind ?q _] => destruct q as [[[x' t'] s']| | |] end; cbn [bind]; try discriminate.
  unfold rk45_adapt, clampable. rewrite H. discriminate.
Qed.
Lemma c49_clamp {U} (c : rk45 R) (f : vec3 R -> U -> res (vec3 R)) x ut dt horizon n :
  0 < rk_hmax c < rk_hmin c -> rk_hmin c <= horizon < 4294967295 * rk_hmin c -> (forall y u, is_ok (f y u) = true) -> num_steps dt horizon = Ok n -> (1 <= n <= lenZ ut)%Z ->
  rk45_solve c f x ut dt horizon = UB UClamp.
Proof.
  intros H Hh Hf N Hn. unfold rk45_solve. rewrite N. cbn [bind].
  assert (Q : 1 <= horizon / rk_hmin c < 4294967295).
  { split; [apply Rmult_le_reg_r with (rk_hmin c)|apply Rmult_lt_reg_r with (rk_hmin c)]; try lra; replace (horizon / rk_hmin c * rk_hmin c) with horizon by (field; lra); lra. }
  set (q := horizon / rk_hmin c) in *. assert (F1 : (1 <= Zfloor q)%Z) by (apply Zfloor_lub; lra).
  assert (F2 : (Zfloor q < 4294967295)%Z) by (apply lt_IZR; pose proof (Zfloor_lb q); lra).
  assert (M : to_u32 (horizon / rk_hmin c)%num = Ok (Zfloor q)).
  { unfold to_u32. rrn. rewrite Ztrunc_floor by (fold q; lra). fold q. destruct (Z.leb_spec 0 (Zfloor q)); [|lia]. destruct (Z.ltb_spec (Zfloor q) two32); [reflexivity|unfold two32 in *; lia]. }
  rewrite M. cbn [bind]. assert (UE : u32 (Zfloor q + 1) = (Zfloor q + 1)%Z) by (unfold u32; apply Z.mod_small; unfold two32; lia). rewrite UE.
  destruct (Z.eqb_spec (Zfloor q + 1) 0) as [?|_]; [lia|]. cbn [rk45_loop].
  assert (E0 : rk45_index n n0 horizon = Ok 0%Z) by apply index_0. rewrite E0. cbn [bind].
  destruct ut as [|u ut]; [unfold lenZ in Hn; cbn in Hn; lia|]. change (col_at (u :: ut) 0) with (@Ok U u). cbn [bind].
  destruct (stages_total (fun y => f y u) x ((rk_hmax c + rk_hmin c) / n2)%num ((rk_hmax c + rk_hmin c) / n2)%num (fun y => Hf y u)) as ([xn e] & S).
  unfold rk45_step. rewrite S. cbn [bind]. destruct (Z.ltb_spec (lenZ [(@n0 R _, x)]) (Zfloor q + 1)); [|change (lenZ [(@n0 R _, x)]) with 1%Z in *; lia].
  destruct (rk45_accept c e); cbn [bind]; unfold rk45_adapt, clampable; cbn [nlt RNum]; rewrite (proj2 (Rltb_true _ _)) by lra; reflexivity.
Qed.
