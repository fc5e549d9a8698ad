(** Proofs of the statements of PropCollision.v. *)
From Coq Require Import Reals Lra ZArith Lia List ZifyBool.
From Flocq Require Import Core.Raux IEEE754.BinarySingleNaN.
From Verif Require Import Outcome Num Float64 FloatLemmas GridModel GridProofs GridFloat CollisionModel Spec CircleProofs CollisionProofs.
Import ListNotations.
Ltac Zify.zify_post_hook ::= idtac.
Local Open Scope Z_scope.

(** The robot's cell (row i, column j) and the three radii in cells, as the API computes them. *)
Definition robot_at {T} {NT : Num T} (c : collision T) (g : grid T) (px py : T) (i j rb rc rm : Z) : Prop :=
  world2Grid g px py = Ok (i, j) /\
  to_int (nfloor (c_brad c / g_res g))%num = Ok rb /\
  to_int (nfloor ((c_brad c + c_othr c) / g_res g))%num = Ok rc /\
  to_int (nfloor (c_srad c / g_res g))%num = Ok rm /\
  0 <= i <= 2 ^ 30 /\ 0 <= j <= 2 ^ 30 /\
  - 46340 <= rb /\ - 46340 <= rc <= 46340 /\ rm <= 46340.

Lemma on_circle_ring_set r a b : on_circle r a b <-> ring_set r a b.
Proof.
  unfold on_circle, ring_set. rewrite !Z.pow_2_r. reflexivity.
Qed.

Section Gen.
Context {T : Type} {NT : Num T}.
Implicit Types (c : collision T) (g : grid T).

Lemma occb_occupied c g i j : occb c g i j = true <-> occupied g (c_occ c) i j.
Proof.
  unfold occb, occupied, in_grid. split.
  - intros H. apply andb_prop in H. destruct H as [H1 H2]. split; [lia|].
    unfold nthZ in H2. destruct (i * g_xsize g + j <? 0); [discriminate|].
    destruct (nth_error _ _) as [v|]; [|discriminate]. exists v. split; [reflexivity|].
    destruct (nlt _ _); [discriminate|reflexivity].
  - intros [[Hi Hj] (v & Hv & Hn)]. apply andb_true_intro. split; [lia|].
    unfold nthZ. destruct (Z.ltb_spec (i * g_xsize g + j) 0); [nia|].
    rewrite Hv, Hn. reflexivity.
Qed.

Lemma ordinary_good g : ordinary_map g -> good_grid g.
Proof. unfold ordinary_map, good_grid, cells, sized, two31, two32. intuition. Qed.

Lemma robot_cfg c g px py i j rb rc rm :
  robot_at c g px py i j rb rc rm ->
  mk_config c g px py = Ok (mkCfg rb rc rm j i) /\ good_cfg (mkCfg rb rc rm j i).
Proof.
  intros (W & A & B & D & Hi & Hj & H1 & H2 & H3). unfold mk_config. rewrite W, A, B, D. cbn [bind].
  rewrite (s32_small i), (s32_small j) by (unfold two31; lia). split; [reflexivity|].
  unfold good_cfg, RMAX; cbn [cx cy r_col r_max r_bnd]. lia.
Qed.

Definition hits c g (i j rb rc rm : Z) : Prop :=
  exists a b, scanned rb rm a b /\ occupied g (c_occ c) (i + b) (j + a) /\ a ^ 2 + b ^ 2 <= rc ^ 2.

Lemma scan_hits c g i j rb rc rm :
  fst (scan c g (mkCfg rb rc rm j i) (offsets (mkCfg rb rc rm j i)) cst0) = true <-> hits c g i j rb rc rm.
Proof.
  rewrite scan_hit. unfold hit, hits. cbn [cx cy r_col]. split.
  - intros ([a b] & Hin & Ho & Hd). cbn [fst snd] in *. exists a, b. split; [|split].
    + apply offsets_in in Hin. destruct Hin as (k & K & K1 & K2). exists k. cbn in K.
      rewrite on_circle_ring_set. auto.
    + apply occb_occupied. exact Ho.
    + rewrite !Z.pow_2_r. exact Hd.
  - intros (a & b & (k & K & K1 & K2) & Ho & Hd). exists (a, b). cbn [fst snd].
    split; [|split].
    + apply offsets_in. exists k. rewrite <- on_circle_ring_set. cbn. auto.
    + apply occb_occupied. exact Ho.
    + rewrite !Z.pow_2_r in Hd. exact Hd.
Qed.

Lemma c10_exact c g px py i j rb rc rm :
  ordinary_map g -> robot_at c g px py i j rb rc rm ->
  exists res, collisionCheck c g px py = Ok res /\
    (res = true <-> exists a b, scanned rb rm a b /\ occupied g (c_occ c) (i + b) (j + a) /\
                                a ^ 2 + b ^ 2 <= rc ^ 2).
Proof.
  intros HG HR. apply ordinary_good in HG. apply robot_cfg in HR. destruct HR as [HM HC].
  unfold collisionCheck. rewrite HM. cbn [bind]. rewrite (search_scan c g _ HG HC). cbn [bind].
  pose proof (scan_hits c g i j rb rc rm) as S.
  destruct (scan c g (mkCfg rb rc rm j i) (offsets (mkCfg rb rc rm j i)) cst0) as [b s].
  exists b. split; [reflexivity|]. exact S.
Qed.

(** Everything the three queries answer, from one scan. *)
Lemma queries c g px py i j rb rc rm :
  ordinary_map g -> robot_at c g px py i j rb rc rm ->
  (hits c g i j rb rc rm /\ collisionCheck c g px py = Ok true /\
   minDistance c g px py = Ok (Crash, n0) /\ minDirection c g px py = Ok (Crash, (n0, n0))) \/
  (~ hits c g i j rb rc rm /\ collisionCheck c g px py = Ok false /\
   ((forall a b, scanned rb rm a b -> ~ occupied g (c_occ c) (i + b) (j + a)) /\
    minDistance c g px py = Ok (NoneMsg, nmax) /\ minDirection c g px py = Ok (NoneMsg, (nmax, nmax)) \/
    exists a b, scanned rb rm a b /\ occupied g (c_occ c) (i + b) (j + a) /\ rc ^ 2 < a ^ 2 + b ^ 2 /\
      (forall a' b', scanned rb rm a' b' -> occupied g (c_occ c) (i + b') (j + a') ->
                     a ^ 2 + b ^ 2 <= a' ^ 2 + b' ^ 2) /\
      minDistance c g px py = Ok (Obstacle, (nsqrt (nofZ (a ^ 2 + b ^ 2)) * g_res g - c_brad c)%num) /\
      minDirection c g px py = Ok (Obstacle, ((g_res g * nofZ a)%num, (g_res g * nofZ b)%num)))).
Proof.
  intros HG HR. apply ordinary_good in HG. apply robot_cfg in HR. destruct HR as [HM HC].
  unfold collisionCheck, minDistance, minDirection. rewrite HM. cbn [bind].
  set (cf := mkCfg rb rc rm j i) in *.
  rewrite (search_scan c g _ HG HC cst0). cbn [bind].
  pose proof (scan_hits c g i j rb rc rm) as S. fold cf in S.
  pose proof (scan_hit c g cf (offsets cf)) as SH.
  pose proof (search_twice c g cf) as S2.
  pose proof (scan_state c g cf (offsets cf) cst0 (fun _ => False)) as S3.
  destruct (scan c g cf (offsets cf) cst0) as [b s] eqn:E. cbn [fst snd] in *.
  rewrite (search_scan c g _ HG HC s). cbn [bind].
  destruct b.
  - left. split; [apply S; reflexivity|]. split; [reflexivity|]. split; [reflexivity|].
    assert (F : fst (scan c g cf (offsets cf) s) = true).
    { apply SH. apply (SH cst0). rewrite E. reflexivity. }
    destruct (scan c g cf (offsets cf) s) as [b' s']. cbn [fst] in F. rewrite F. reflexivity.
  - right. split; [intros H; apply S in H; discriminate|]. split; [reflexivity|].
    rewrite (S2 eq_refl). cbn [snd].
    assert (S0 : st_ok c g cf (fun _ => False) cst0) by (left; repeat split; intros p []).
    destruct (S3 S0 eq_refl) as [(A & B & D)|(A & B & D & F)].
    + left. rewrite A. cbn. split; [|split; reflexivity].
      intros a b0 (k & K & K1 & K2) O. apply occb_occupied in O.
      assert (In (a, b0) (offsets cf)).
      { apply offsets_in. exists k. rewrite <- on_circle_ring_set. cbn. auto. }
      specialize (D (a, b0) (or_intror H)). unfold occp in D. cbn in D. congruence.
    + right. exists (c_dx s), (c_dy s).
      destruct B as [[]|B]. rewrite !Z.pow_2_r, <- A.
      assert (c_sq s =? -1 = false) as -> by nia.
      apply offsets_in in B. destruct B as (k & K & K1 & K2). cbn in K.
      rewrite <- on_circle_ring_set in K2.
      assert (SC : scanned rb rm (c_dx s) (c_dy s)) by (exists k; auto).
      assert (OC : occupied g (c_occ c) (i + c_dy s) (j + c_dx s)) by (apply occb_occupied; exact D).
      split; [exact SC|]. split; [exact OC|]. split; [|split; [|split; reflexivity]].
      * destruct (Z_lt_le_dec (rc * rc) (c_sq s)) as [|G]; [assumption|exfalso].
        assert (hits c g i j rb rc rm).
        { exists (c_dx s), (c_dy s). rewrite !Z.pow_2_r, <- A. auto. }
        apply S in H. discriminate.
      * intros a' b' (k' & K' & K1' & K2') O. apply occb_occupied in O.
        rewrite !Z.pow_2_r. apply (F (a', b')); [|exact O].
        right. apply offsets_in. exists k'. rewrite <- on_circle_ring_set. cbn. auto.
Qed.

Lemma c11_agree c g px py i j rb rc rm :
  ordinary_map g -> robot_at c g px py i j rb rc rm ->
  exists b m d v, collisionCheck c g px py = Ok b /\ minDistance c g px py = Ok (m, d) /\
    minDirection c g px py = Ok (m, v) /\ (b = true <-> m = Crash).
Proof.
  intros HG HR. destruct (queries c g px py i j rb rc rm HG HR) as
    [(_ & A & B & D)|(_ & A & [(_ & B & D)|(a & b & _ & _ & _ & _ & B & D)])];
    (do 4 eexists; split; [exact A|split; [exact B|split; [exact D|
     split; intros X; try reflexivity; discriminate X]]]).
Qed.

Lemma c12_min c g px py i j rb rc rm d :
  ordinary_map g -> robot_at c g px py i j rb rc rm ->
  minDistance c g px py = Ok (Obstacle, d) ->
  exists a b, scanned rb rm a b /\ occupied g (c_occ c) (i + b) (j + a) /\
    (forall a' b', scanned rb rm a' b' -> occupied g (c_occ c) (i + b') (j + a') ->
                   a ^ 2 + b ^ 2 <= a' ^ 2 + b' ^ 2) /\
    rc ^ 2 < a ^ 2 + b ^ 2 /\
    d = (nsqrt (nofZ (a ^ 2 + b ^ 2)) * g_res g - c_brad c)%num /\
    minDirection c g px py = Ok (Obstacle, ((g_res g * nofZ a)%num, (g_res g * nofZ b)%num)).
Proof.
  intros HG HR HD. destruct (queries c g px py i j rb rc rm HG HR) as
    [(_ & A & B & D)|(_ & A & [(_ & B & D)|(a & b & S & O & G & M & B & D)])]; rewrite B in HD; try discriminate.
  injection HD as <-. exists a, b. auto 10.
Qed.
Lemma c12_none c g px py i j rb rc rm d :
  ordinary_map g -> robot_at c g px py i j rb rc rm ->
  minDistance c g px py = Ok (NoneMsg, d) ->
  d = nmax /\ minDirection c g px py = Ok (NoneMsg, (nmax, nmax)) /\
  forall a b, scanned rb rm a b -> ~ occupied g (c_occ c) (i + b) (j + a).
Proof.
  intros HG HR HD. destruct (queries c g px py i j rb rc rm HG HR) as
    [(_ & A & B & D)|(_ & A & [(N & B & D)|(a & b & S & O & G & M & B & D)])]; rewrite B in HD; try discriminate.
  injection HD as <-. auto.
Qed.

(** C13: no failure *)
Lemma c13_total c g px py i j rb rc rm :
  ordinary_map g -> robot_at c g px py i j rb rc rm ->
  is_ok (collisionCheck c g px py) = true /\ is_ok (minDistance c g px py) = true /\
  is_ok (minDirection c g px py) = true.
Proof.
  intros HG HR. destruct (queries c g px py i j rb rc rm HG HR) as
    [(_ & A & B & D)|(_ & A & [(_ & B & D)|(a & b & _ & _ & _ & _ & B & D)])]; rewrite A, B, D; auto.
Qed.
End Gen.

(** ** Geometry of the circles *)
Definition outside (r a b : Z) : Prop :=
  let m := Z.max (Z.abs a) (Z.abs b) in
  m <= a * a + b * b - r * r \/ (1 <= m /\ Z.abs a = Z.abs b /\ a * a + b * b - r * r = m - 1).
Definition inside (r a b : Z) : Prop :=
  a * a + b * b - r * r < - Z.max (Z.abs a) (Z.abs b).

Lemma trichotomy r a b : on_circle r a b \/ outside r a b \/ inside r a b.
Proof. unfold on_circle, outside, inside. rewrite !Z.pow_2_r. lia. Qed.

Lemma abs_sq a : a * a = Z.abs a * Z.abs a.
Proof. nia. Qed.

Lemma no_jump r p q : adjacent4 p q -> outside r (fst p) (snd p) -> ~ inside r (fst q) (snd q).
Proof.
  destruct p as [a b], q as [a' b']. unfold adjacent4, outside, inside. cbn [fst snd]. intros H.
  rewrite (abs_sq a), (abs_sq b), (abs_sq a'), (abs_sq b').
  assert (D : (Z.abs a' = Z.abs a + 1 /\ Z.abs b' = Z.abs b) \/ (Z.abs a' = Z.abs a - 1 /\ Z.abs b' = Z.abs b) \/
              (Z.abs a' = Z.abs a /\ Z.abs b' = Z.abs b + 1) \/ (Z.abs a' = Z.abs a /\ Z.abs b' = Z.abs b - 1)) by lia.
  assert (0 <= Z.abs a') by lia. assert (0 <= Z.abs b') by lia.
  generalize dependent (Z.abs a'). generalize dependent (Z.abs b').
  assert (0 <= Z.abs a) by lia. assert (0 <= Z.abs b) by lia.
  revert H0 H1. generalize (Z.abs a), (Z.abs b). clear. intros A B HA HB B' HB' A' D HA' H1 H2.
  destruct D as [[-> ->]|[[-> ->]|[[-> ->]|[-> ->]]]]; lia.
Qed.

Lemma chain_crosses r : forall l p, chain4 p l -> outside r (fst p) (snd p) ->
  (exists q, In q l /\ inside r (fst q) (snd q)) ->
  exists q, In q l /\ on_circle r (fst q) (snd q).
Proof.
  induction l as [|q l IH]; intros p Hc Ho (z & Hz & Hi); [destruct Hz|].
  destruct Hc as [Ha Hc].
  destruct (trichotomy r (fst q) (snd q)) as [T|[T|T]].
  - exists q. split; [left; reflexivity|assumption].
  - destruct Hz as [->|Hz].
    + exfalso. unfold outside, inside in *. lia.
    + destruct (IH q Hc T) as (w & W1 & W2); [eauto|]. exists w. split; [right; assumption|assumption].
  - exfalso. exact (no_jump r p q Ha Ho T).
Qed.

Lemma far_outside r a b : 0 <= r -> (r + 1) ^ 2 <= a ^ 2 + b ^ 2 -> outside r a b.
Proof.
  intros Hr. rewrite !Z.pow_2_r. unfold outside. intros H. left.
  rewrite (abs_sq a), (abs_sq b) in *.
  assert (0 <= Z.abs a) by lia. assert (0 <= Z.abs b) by lia.
  revert H0 H1 H. generalize (Z.abs a), (Z.abs b). clear a b. intros A B HA HB H.
  destruct (Z_le_gt_dec A B).
  - rewrite Z.max_r by lia. nia.
  - rewrite Z.max_l by lia. nia.
Qed.
Lemma near_inside r a b : 1 <= r -> a ^ 2 + b ^ 2 <= (r - 1) ^ 2 -> inside r a b.
Proof.
  intros Hr. rewrite !Z.pow_2_r. unfold inside. intros H.
  rewrite (abs_sq a), (abs_sq b) in *.
  assert (0 <= Z.abs a) by lia. assert (0 <= Z.abs b) by lia.
  revert H0 H1 H. generalize (Z.abs a), (Z.abs b). clear a b. intros A B HA HB H.
  assert (A <= r - 1) by nia. assert (B <= r - 1) by nia. nia.
Qed.

Lemma circle_sq_lt r a b : 1 <= r -> on_circle r a b -> a ^ 2 + b ^ 2 < r ^ 2 + r + 1.
Proof.
  intros Hr H. apply on_circle_ring_set, ring_exact in H; [|assumption].
  pose proof (ring_sq_bound r a b Hr H). rewrite !Z.pow_2_r. lia.
Qed.

Section Walls.
Context {T : Type} {NT : Num T}.
Implicit Types (c : collision T) (g : grid T).

Lemma c14_chain r (l : list (Z * Z)) p : chain4 p l -> 1 <= r ->
  (r + 1) ^ 2 <= fst p ^ 2 + snd p ^ 2 ->
  (exists q, In q l /\ fst q ^ 2 + snd q ^ 2 <= (r - 1) ^ 2) ->
  exists q, In q l /\ on_circle r (fst q) (snd q).
Proof.
  intros Hc Hr Ho (q & Hq & Hi). apply (chain_crosses r l p Hc).
  - apply far_outside; lia.
  - exists q. split; [assumption|]. apply near_inside; assumption.
Qed.

Lemma c14_wall c g px py i j rb rc rm r p l :
  ordinary_map g -> robot_at c g px py i j rb rc rm ->
  1 <= r -> rb <= r <= rm -> r < rc -> chain4 p l ->
  (r + 1) ^ 2 <= fst p ^ 2 + snd p ^ 2 ->
  (exists q, In q l /\ fst q ^ 2 + snd q ^ 2 <= (r - 1) ^ 2) ->
  (forall q, In q l -> occupied g (c_occ c) (i + snd q) (j + fst q)) ->
  collisionCheck c g px py = Ok true.
Proof.
  intros HG HR H1 H2 H3 Hc Ho Hi Hocc.
  destruct (c10_exact c g px py i j rb rc rm HG HR) as (res & -> & Hres).
  f_equal. apply Hres.
  destruct (c14_chain r l p Hc H1 Ho Hi) as (q & Hq & Hon).
  exists (fst q), (snd q). split; [exists r; auto|]. split; [auto|].
  pose proof (circle_sq_lt r _ _ H1 Hon). rewrite !Z.pow_2_r in *. nia.
Qed.

(** Dominoes: two edge-adjacent occupied cells strictly between the radii are always noticed. *)
Lemma between_step A B : 0 <= A -> 0 <= B -> forall k, 0 <= k ->
  outside k A B -> inside (k + 1) (A + 1) B -> False.
Proof.
  unfold outside, inside. intros HA HB k Hk. rewrite !Z.abs_eq by lia. intros H1 H2.
  destruct (Z_le_gt_dec B A).
  - rewrite (Z.max_l A B), (Z.max_l (A + 1) B) in * by lia. nia.
  - rewrite (Z.max_r A B), (Z.max_r (A + 1) B) in * by lia. nia.
Qed.

Lemma outside_abs r a b : outside r a b <-> outside r (Z.abs a) (Z.abs b).
Proof. unfold outside. rewrite !Z.abs_involutive, <- !abs_sq. reflexivity. Qed.
Lemma inside_abs r a b : inside r a b <-> inside r (Z.abs a) (Z.abs b).
Proof. unfold inside. rewrite !Z.abs_involutive, <- !abs_sq. reflexivity. Qed.
Lemma outside_swap r a b : outside r a b <-> outside r b a.
Proof. unfold outside. lia. Qed.
Lemma inside_swap r a b : inside r a b <-> inside r b a.
Proof. unfold inside. lia. Qed.

Lemma between_adjacent k p q : 0 <= k -> adjacent4 p q ->
  outside k (fst p) (snd p) -> outside k (fst q) (snd q) ->
  inside (k + 1) (fst p) (snd p) -> inside (k + 1) (fst q) (snd q) -> False.
Proof.
  destruct p as [a b], q as [a' b']. unfold adjacent4. cbn [fst snd].
  rewrite (outside_abs k a b), (outside_abs k a' b'), (inside_abs (k+1) a b), (inside_abs (k+1) a' b').
  intros Hk H O1 O2 I1 I2.
  assert (D : (Z.abs a' = Z.abs a + 1 /\ Z.abs b' = Z.abs b) \/ (Z.abs a = Z.abs a' + 1 /\ Z.abs b' = Z.abs b) \/
              (Z.abs a' = Z.abs a /\ Z.abs b' = Z.abs b + 1) \/ (Z.abs a' = Z.abs a /\ Z.abs b = Z.abs b' + 1)) by lia.
  assert (0 <= Z.abs a) by lia. assert (0 <= Z.abs b) by lia.
  assert (0 <= Z.abs a') by lia. assert (0 <= Z.abs b') by lia.
  destruct D as [[E1 E2]|[[E1 E2]|[[E1 E2]|[E1 E2]]]].
  - rewrite E1, E2 in I2. exact (between_step _ _ H0 H1 k Hk O1 I2).
  - rewrite E1, <- E2 in I1. exact (between_step _ _ H2 H3 k Hk O2 I1).
  - rewrite E1, E2 in I2. rewrite outside_swap in O1. rewrite inside_swap in I2.
    exact (between_step _ _ H1 H0 k Hk O1 I2).
  - rewrite <- E1, E2 in I1. rewrite outside_swap in O2. rewrite inside_swap in I1.
    exact (between_step _ _ H3 H2 k Hk O2 I1).
Qed.

Lemma domino_steps rb p q : 1 <= rb -> adjacent4 p q -> outside rb (fst p) (snd p) ->
  forall n : nat, inside (rb + Z.of_nat n) (fst p) (snd p) ->
  scanned rb (rb + Z.of_nat n) (fst p) (snd p) \/ scanned rb (rb + Z.of_nat n) (fst q) (snd q).
Proof.
  intros Hb Ha Ho. induction n as [|n IH]; intros Hi.
  - exfalso. rewrite Z.add_0_r in Hi. unfold outside, inside in *. lia.
  - assert (Ha' : adjacent4 q p) by (unfold adjacent4 in *; lia).
    assert (W : forall a b, scanned rb (rb + Z.of_nat n) a b -> scanned rb (rb + Z.of_nat (S n)) a b).
    { intros a b (r & R1 & R2). exists r. split; [lia|assumption]. }
    replace (rb + Z.of_nat (S n)) with (rb + Z.of_nat n + 1) in * by lia.
    destruct (trichotomy (rb + Z.of_nat n) (fst p) (snd p)) as [C|[C|C]].
    + left. exists (rb + Z.of_nat n). split; [lia|]. split; [lia|assumption].
    + destruct (trichotomy (rb + Z.of_nat n) (fst q) (snd q)) as [D|[D|D]].
      * right. exists (rb + Z.of_nat n). split; [lia|]. split; [lia|assumption].
      * destruct (trichotomy (rb + Z.of_nat n + 1) (fst q) (snd q)) as [F|[F|F]].
        -- right. exists (rb + Z.of_nat n + 1). split; [lia|]. split; [lia|assumption].
        -- exfalso. exact (no_jump _ _ _ Ha' F Hi).
        -- exfalso. apply (between_adjacent (rb + Z.of_nat n) p q); try assumption. lia.
      * exfalso. exact (no_jump _ _ _ Ha C D).
    + destruct (IH C); [left|right]; apply W; assumption.
Qed.

Lemma domino_scanned rb rm p q : 1 <= rb <= rm -> adjacent4 p q ->
  (rb + 1) ^ 2 <= fst p ^ 2 + snd p ^ 2 <= (rm - 1) ^ 2 ->
  scanned rb rm (fst p) (snd p) \/ scanned rb rm (fst q) (snd q).
Proof.
  intros Hb Ha [H1 H2].
  replace rm with (rb + Z.of_nat (Z.to_nat (rm - rb))) by lia.
  apply domino_steps; [lia|assumption|apply far_outside; lia|].
  replace (rb + Z.of_nat (Z.to_nat (rm - rb))) with rm by lia. apply near_inside; lia.
Qed.

Lemma c15_domino c g px py i j rb rc rm p q :
  ordinary_map g -> robot_at c g px py i j rb rc rm -> 1 <= rb <= rm -> adjacent4 p q ->
  (rb + 1) ^ 2 <= fst p ^ 2 + snd p ^ 2 <= (rm - 1) ^ 2 ->
  fst p ^ 2 + snd p ^ 2 <= rc ^ 2 -> fst q ^ 2 + snd q ^ 2 <= rc ^ 2 ->
  occupied g (c_occ c) (i + snd p) (j + fst p) -> occupied g (c_occ c) (i + snd q) (j + fst q) ->
  collisionCheck c g px py = Ok true.
Proof.
  intros HG HR Hb Ha Hp Hc1 Hc2 O1 O2.
  destruct (c10_exact c g px py i j rb rc rm HG HR) as (res & -> & Hres).
  f_equal. apply Hres.
  destruct (domino_scanned rb rm p q Hb Ha Hp) as [S|S]; eauto.
Qed.
Lemma axis_scanned rb rm k a b : 1 <= k -> rb <= k <= rm ->
  (Z.abs a = k /\ b = 0) \/ (a = 0 /\ Z.abs b = k) -> scanned rb rm a b.
Proof.
  intros H1 H2 H3. exists k. split; [lia|]. split; [lia|]. unfold on_circle. rewrite !Z.pow_2_r.
  rewrite (abs_sq a), (abs_sq b). destruct H3 as [[-> ->]|[-> ->]]; cbn [Z.abs]; lia.
Qed.
Lemma c15_axis c g px py i j rb rc rm k a b :
  ordinary_map g -> robot_at c g px py i j rb rc rm -> 1 <= k -> rb <= k <= rm -> k <= rc ->
  (Z.abs a = k /\ b = 0) \/ (a = 0 /\ Z.abs b = k) ->
  occupied g (c_occ c) (i + b) (j + a) ->
  collisionCheck c g px py = Ok true.
Proof.
  intros HG HR H1 H2 H3 H4 O.
  destruct (c10_exact c g px py i j rb rc rm HG HR) as (res & -> & Hres).
  f_equal. apply Hres. exists a, b. split; [apply (axis_scanned rb rm k); assumption|].
  split; [assumption|]. rewrite !Z.pow_2_r, (abs_sq a), (abs_sq b).
  destruct H4 as [[-> ->]|[-> ->]]; cbn [Z.abs]; nia.
Qed.
End Walls.
