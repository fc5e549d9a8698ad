(** The collision search: reduction to a scan of a list of offsets, and its meaning. *)
From Coq Require Import ZArith Lia List ZifyBool.
From Verif Require Import Outcome Num GridModel GridProofs CollisionModel Spec CircleProofs.
Import ListNotations.
Ltac Zify.zify_post_hook ::= idtac.
Local Open Scope Z_scope.

Section Coll.
Context {T : Type} {NT : Num T}.
Variables (c : collision T) (g : grid T).

(** Largest radius for which squared distances fit an int. *)
Definition RMAX : Z := 46340.

Definition good_grid : Prop :=
  0 < g_xsize g <= two31 /\ 0 < g_ysize g <= two31 /\
  g_xsize g * g_ysize g <= two32 /\ lenZ (g_data g) = g_xsize g * g_ysize g.

Definition occb (i j : Z) : bool :=
  (0 <=? i) && (i <? g_ysize g) && (0 <=? j) && (j <? g_xsize g) &&
  match nthZ (g_data g) (i * g_xsize g + j) with
  | Some v => negb (nlt (nofZ v / nofZ 100)%num (c_occ c))
  | None => false
  end.

Variable cf : cfg.
Definition good_cfg : Prop :=
  0 <= cx cf <= 2 ^ 30 /\ 0 <= cy cf <= 2 ^ 30 /\ - RMAX <= r_col cf <= RMAX /\ r_max cf <= RMAX /\ - RMAX <= r_bnd cf.

Definition upd (s : cst) (a b : Z) : cst :=
  if (a * a + b * b <? c_sq s) || (c_sq s =? -1) then mkCst a b (a * a + b * b) else s.

Hypothesis HG : good_grid.
Hypothesis HC : good_cfg.

Lemma u32_mod_sq a : u32 (u32 a * u32 a) = u32 (a * a).
Proof. unfold u32. rewrite <- Z.mul_mod by (unfold two32; lia). reflexivity. Qed.

Lemma s32_id z : - two31 <= z < two31 -> s32 z = z.
Proof.
  intros H. unfold s32, u32. unfold two31, two32 in *.
  destruct (Z_le_gt_dec 0 z).
  - rewrite Z.mod_small by lia. destruct (z <? 2147483648) eqn:E; lia.
  - replace (z mod 4294967296) with (z + 4294967296).
    + destruct (z + 4294967296 <? 2147483648) eqn:E; lia.
    + apply Z.mod_unique with (-1); lia.
Qed.
Lemma s32_u32 z : s32 (u32 z) = s32 z.
Proof. unfold s32, u32. rewrite Z.mod_mod by (unfold two32; lia). reflexivity. Qed.

Lemma check_at_eq s a b :
  - RMAX <= a <= RMAX -> - RMAX <= b <= RMAX -> a * a + b * b < two31 ->
  check_at c cf g (cx cf + a) (cy cf + b) s =
  if occb (cy cf + b) (cx cf + a)
  then Ok (a * a + b * b <=? r_col cf * r_col cf, upd s a b)
  else Ok (false, s).
Proof.
  intros Ha Hb Hab. destruct HG as (Gx & Gy & Gs & Gd). destruct HC as (Cx & Cy & Cr & _).
  unfold check_at. unfold RMAX in *.
  rewrite (int_ck_ok (cx cf + a)) by (unfold two31 in *; lia). cbn [bind].
  rewrite (int_ck_ok (cy cf + b)) by (unfold two31 in *; lia). cbn [bind].
  unfold checkCell. set (J := cx cf + a). set (I := cy cf + b).
  assert (BJ : - two31 <= J < two31) by (unfold two31, J in *; lia).
  assert (BI : - two31 <= I < two31) by (unfold two31, I in *; lia).
  assert (UJ : u32 J = if 0 <=? J then J else J + two32).
  { destruct (0 <=? J) eqn:E.
    - apply u32_small. unfold two31, two32 in *; lia.
    - unfold u32. symmetry. apply Z.mod_unique with (-1); unfold two31, two32 in *; lia. }
  assert (UI : u32 I = if 0 <=? I then I else I + two32).
  { destruct (0 <=? I) eqn:E.
    - apply u32_small. unfold two31, two32 in *; lia.
    - unfold u32. symmetry. apply Z.mod_unique with (-1); unfold two31, two32 in *; lia. }
  assert (GB : gridBounds g (u32 I) (u32 J) =
               ((0 <=? I) && (I <? g_ysize g) && (0 <=? J) && (J <? g_xsize g))).
  { destruct (gridBounds g (u32 I) (u32 J)) eqn:E.
    - apply bounds_nonempty in E; [|unfold two31, two32 in *; lia|unfold two31, two32 in *; lia|apply u32_range|apply u32_range].
      rewrite UI, UJ in E. destruct (0 <=? I) eqn:E1, (0 <=? J) eqn:E2; unfold two31, two32 in *; lia.
    - destruct ((0 <=? I) && (I <? g_ysize g) && (0 <=? J) && (J <? g_xsize g)) eqn:F; [|reflexivity].
      assert (gridBounds g (u32 I) (u32 J) = true); [|congruence].
      apply bounds_nonempty; [unfold two31, two32 in *; lia|unfold two31, two32 in *; lia|apply u32_range|apply u32_range|].
      rewrite UI, UJ. destruct (0 <=? I) eqn:E1, (0 <=? J) eqn:E2; lia. }
  rewrite GB. unfold occb. fold I J.
  destruct ((0 <=? I) && (I <? g_ysize g) && (0 <=? J) && (J <? g_xsize g)) eqn:F; cbn [andb]; [|reflexivity].
  rewrite UI, UJ. destruct (0 <=? I) eqn:E1; [|lia]. destruct (0 <=? J) eqn:E2; [|lia].
  destruct (getCell_in g I J) as [v [Hv Hg]]; try lia.
  rewrite Hv, Hg. cbn [bind]. unfold cell_val.
  destruct (negb (nlt (nofZ v / nofZ 100)%num (c_occ c))); [|reflexivity].
  rewrite !u32_mod_sq.
  replace (cx cf - J) with (- a) by (unfold J; lia). replace (cy cf - I) with (- b) by (unfold I; lia).
  replace (J - cx cf) with a by (unfold J; lia). replace (I - cy cf) with b by (unfold I; lia).
  rewrite (s32_id a), (s32_id b) by (unfold two31; lia).
  replace (- a * - a) with (a * a) by ring. replace (- b * - b) with (b * b) by ring.
  assert (0 <= a * a) by nia. assert (0 <= b * b) by nia.
  rewrite (u32_small (a * a)), (u32_small (b * b)) by (unfold two31, two32 in *; lia).
  rewrite s32_small by lia.
  rewrite int_ck_ok by (unfold two31; nia). cbn [bind].
  reflexivity.
Qed.

(** Scanning a list of offsets. *)
Fixpoint scan (l : list (Z * Z)) (s : cst) : bool * cst :=
  match l with
  | [] => (false, s)
  | (a, b) :: l' =>
      if occb (cy cf + b) (cx cf + a) then
        if a * a + b * b <=? r_col cf * r_col cf then (true, upd s a b) else scan l' (upd s a b)
      else scan l' s
  end.

Lemma scan_app l1 l2 s :
  scan (l1 ++ l2) s = let '(b, s1) := scan l1 s in if b then (true, s1) else scan l2 s1.
Proof.
  revert s; induction l1 as [|[a b] l1 IH]; intros s; cbn [app scan]; [reflexivity|].
  destruct (occb _ _); [destruct (_ <=? _)|]; auto.
Qed.

Definition small (p : Z * Z) : Prop :=
  - RMAX <= fst p <= RMAX /\ - RMAX <= snd p <= RMAX /\ fst p * fst p + snd p * snd p < two31.

Lemma orelse_scan1 s a b (k : cst -> res (bool * cst)) l :
  small (a, b) -> (forall s, k s = Ok (scan l s)) ->
  orelse (check_at c cf g (cx cf + a) (cy cf + b) s) k = Ok (scan ((a, b) :: l) s).
Proof.
  intros (H1 & H2 & H3) Hk. cbn [fst snd] in *. rewrite check_at_eq by assumption.
  cbn [scan]. unfold orelse. destruct (occb _ _); cbn [bind].
  - destruct (_ <=? _); auto.
  - apply Hk.
Qed.

Lemma check4_scan X y s :
  small (X, y) ->
  check4 c cf g (- X) y s = Ok (scan (rot4 (X, y)) s).
Proof.
  intros H. destruct H as (H1 & H2 & H3). cbn [fst snd] in *. unfold check4, rot4.
  replace (cx cf - - X) with (cx cf + X) by lia.
  replace (cy cf - - X) with (cy cf + X) by lia.
  replace (cx cf - y) with (cx cf + - y) by lia.
  replace (cy cf - y) with (cy cf + - y) by lia.
  assert (S2 : small (- y, X)) by (unfold small; cbn [fst snd]; replace (- y * - y) with (y * y) by ring; lia).
  assert (S3 : small (- X, - y)) by (unfold small; cbn [fst snd]; replace (- X * - X) with (X * X) by ring; replace (- y * - y) with (y * y) by ring; lia).
  assert (S4 : small (y, - X)) by (unfold small; cbn [fst snd]; replace (- X * - X) with (X * X) by ring; lia).
  apply orelse_scan1; [unfold small; cbn [fst snd]; lia|]. intros s1.
  apply orelse_scan1; [assumption|]. intros s2.
  apply orelse_scan1; [assumption|]. intros s3.
  destruct S4 as (A & B & D). cbn [fst snd] in *. rewrite check_at_eq by assumption.
  cbn [scan]. destruct (occb _ _); [destruct (_ <=? _)|]; reflexivity.
Qed.

Lemma circle_loop_scan r fuel : forall X y err s, winv r X y err -> r <= RMAX ->
  X + (r + 1 - y) < Z.of_nat fuel ->
  circle_loop fuel c cf g (- X) y err s = Ok (scan (flat_map rot4 (walk fuel X y err)) s).
Proof.
  induction fuel as [|f IH]; intros X y err s HI Hr Hf.
  { destruct HI as (_ & HX & Hy & _). lia. }
  cbn [circle_loop walk]. destruct (Z.ltb_spec 0 X) as [HX|HX].
  - destruct (- X <? 0) eqn:E; [|lia].
    assert (H1 : 1 <= X) by lia.
    assert (SM : small (X, y)).
    { pose proof (walk_sound r 1 X y err X y HI) as W.
      assert (In (X, y) (walk 1 X y err)).
      { cbn [walk]. destruct (Z.ltb_spec 0 X); [|lia]. left; reflexivity. }
      specialize (W H). destruct W as (W1 & W2 & [W3 _]).
      unfold small, RMAX, two31 in *; cbn [fst snd]. nia. }
    rewrite check4_scan by exact SM. cbn [flat_map]. rewrite scan_app.
    unfold orelse. cbn [bind]. destruct (scan (rot4 (X, y)) s) as [b1 s1].
    destruct b1; [reflexivity|].
    rewrite (walk_step_eq r X y err) by (try assumption; unfold RMAX in Hr; lia).
    pose proof (wstep_inv r X y err HI H1) as Hs.
    destruct (wstep X y err) as [[X' y'] e']. cbn [bind].
    destruct Hs as (I' & L1 & L2 & L3). apply IH; auto; lia.
  - destruct (- X <? 0) eqn:E; [lia|]. reflexivity.
Qed.

Definition ringl (r : Z) : list (Z * Z) := if r <=? 0 then [] else ring r.

Lemma circle_scan r s : - RMAX <= r <= RMAX -> bresenhamCircle c cf g r s = Ok (scan (ringl r) s).
Proof.
  intros Hr. unfold bresenhamCircle. unfold RMAX in *.
  rewrite (int_ck_ok (- r)) by (unfold two31; lia). cbn [bind].
  rewrite (int_ck_ok (2 * r)) by (unfold two31; lia). cbn [bind].
  rewrite (int_ck_ok (2 - 2 * r)) by (unfold two31; lia). cbn [bind].
  unfold ringl. destruct (Z.leb_spec r 0) as [L|L].
  - cbn [circle_loop]. destruct (- r <? 0) eqn:E; [lia|]. reflexivity.
  - unfold ring. apply (circle_loop_scan r); [apply winv_start; lia|unfold RMAX; lia|lia].
Qed.

(** Radii r, r+1, ..., r_max. *)
Fixpoint rings (n : nat) (r : Z) : list (Z * Z) :=
  match n with O => [] | S n' => ringl r ++ rings n' (r + 1) end.

Lemma search_loop_scan n : forall r s,
  Z.of_nat n = r_max cf - r + 1 -> - RMAX <= r -> r_max cf <= RMAX ->
  search_loop (S n) c cf g r s = Ok (scan (rings n r) s).
Proof.
  induction n as [|n IH]; intros r s Hn Hr Hm.
  - cbn [search_loop rings]. destruct (r <=? r_max cf) eqn:E; [lia|]. reflexivity.
  - change (search_loop (S (S n)) c cf g r s) with
      (if r <=? r_max cf then
        orelse (bresenhamCircle c cf g r s) (fun s =>
          let* r' := int_ck (r + 1) in search_loop (S n) c cf g r' s)
      else Ok (false, s)).
    destruct (r <=? r_max cf) eqn:E; [|lia].
    rewrite circle_scan by lia. cbn [rings]. rewrite scan_app. unfold orelse. cbn [bind].
    destruct (scan (ringl r) s) as [b s1]. destruct b; [reflexivity|].
    rewrite int_ck_ok by (unfold RMAX, two31 in *; lia). cbn [bind].
    apply IH; lia.
Qed.

Definition offsets : list (Z * Z) := rings (Z.to_nat (r_max cf - r_bnd cf + 1)) (r_bnd cf).

Lemma search_scan s : search c cf g s = Ok (scan offsets s).
Proof.
  destruct HC as (_ & _ & _ & Hm & Hb). unfold search, offsets.
  destruct (Z_le_gt_dec 0 (r_max cf - r_bnd cf + 1)) as [L|L].
  - apply search_loop_scan; lia.
  - replace (Z.to_nat (r_max cf - r_bnd cf + 1)) with O by lia.
    cbn [search_loop rings]. destruct (r_bnd cf <=? r_max cf) eqn:E; [lia|]. reflexivity.
Qed.

Lemma rings_in n : forall r a b, In (a, b) (rings n r) <->
  exists k, r <= k < r + Z.of_nat n /\ 1 <= k /\ ring_set k a b.
Proof.
  induction n as [|n IH]; intros r a b; cbn [rings].
  - split; [intros []|intros (k & H & _); lia].
  - rewrite in_app_iff, IH. unfold ringl. split.
    + intros [H|(k & H & K1 & K2)].
      * destruct (Z.leb_spec r 0); [destruct H|]. exists r. rewrite ring_exact in H by lia. split; [lia|]. split; [lia|assumption].
      * exists k. split; [lia|]. auto.
    + intros (k & H & K1 & K2). destruct (Z.eq_dec k r) as [->|N].
      * left. destruct (Z.leb_spec r 0); [lia|]. apply ring_exact; assumption.
      * right. exists k. split; [lia|]. auto.
Qed.

Lemma offsets_in a b : In (a, b) offsets <->
  exists k, r_bnd cf <= k <= r_max cf /\ 1 <= k /\ ring_set k a b.
Proof.
  unfold offsets. rewrite rings_in. split; intros (k & H & K); exists k; (split; [lia|exact K]).
Qed.

(** Meaning of a scan *)
Definition hit (p : Z * Z) : Prop :=
  occb (cy cf + snd p) (cx cf + fst p) = true /\ fst p * fst p + snd p * snd p <= r_col cf * r_col cf.

Lemma scan_hit l : forall s, fst (scan l s) = true <-> exists p, In p l /\ hit p.
Proof.
  induction l as [|[a b] l IH]; intros s; cbn [scan].
  - split; [discriminate|intros (p & [] & _)].
  - destruct (occb (cy cf + b) (cx cf + a)) eqn:O.
    + destruct (Z.leb_spec (a * a + b * b) (r_col cf * r_col cf)) as [L|L].
      * split; [|reflexivity]. intros _. exists (a, b). split; [left; reflexivity|]. split; assumption.
      * rewrite IH. split.
        -- intros (p & H & Hh). exists p. split; [right; assumption|assumption].
        -- intros (p & [<-|H] & Hh); [destruct Hh; cbn [fst snd] in *; lia|]. exists p; auto.
    + rewrite IH. split.
      * intros (p & H & Hh). exists p. split; [right; assumption|assumption].
      * intros (p & [<-|H] & Hh); [destruct Hh; cbn [fst snd] in *; congruence|]. exists p; auto.
Qed.

Definition sq (p : Z * Z) : Z := fst p * fst p + snd p * snd p.
Lemma sq_nonneg p : 0 <= sq p.
Proof. unfold sq. nia. Qed.
Definition occp (p : Z * Z) : bool := occb (cy cf + snd p) (cx cf + fst p).

(** State invariant: either nothing was found in the cells seen so far, or the state holds the
    first nearest one. *)
Definition st_ok (seen : Z * Z -> Prop) (s : cst) : Prop :=
  (c_sq s = -1 /\ s = cst0 /\ forall p, seen p -> occp p = false) \/
  (c_sq s = c_dx s * c_dx s + c_dy s * c_dy s /\ seen (c_dx s, c_dy s) /\ occp (c_dx s, c_dy s) = true /\
   forall p, seen p -> occp p = true -> c_sq s <= sq p).

Lemma scan_state l : forall s (seen : Z * Z -> Prop), st_ok seen s -> fst (scan l s) = false ->
  st_ok (fun p => seen p \/ In p l) (snd (scan l s)).
Proof.
  induction l as [|[a b] l IH]; intros s seen Hs; cbn [scan]; intros Hf.
  - cbn [snd]. destruct Hs as [(A & B & D)|(A & B & D & E)]; [left|right].
    + split; [assumption|]. split; [assumption|]. intros p [H|[]]; auto.
    + split; [assumption|]. split; [left; assumption|]. split; [assumption|]. intros p [H|[]]; auto.
  - assert (X : forall s', st_ok (fun p => seen p \/ p = (a, b)) s' -> fst (scan l s') = false ->
             st_ok (fun p => seen p \/ In p ((a, b) :: l)) (snd (scan l s'))).
    { intros s' H1 H2. specialize (IH s' _ H1 H2). revert IH. unfold st_ok.
      intros [(A & B & D)|(A & B & D & E)]; [left|right].
      - split; [assumption|]. split; [assumption|]. intros p [Hp|[<-|Hp]]; apply D; auto.
      - split; [assumption|]. split; [destruct B as [[B|B]|B]; [left|right; left|right; right]; auto|].
        split; [assumption|]. intros p [Hp|[<-|Hp]]; apply E; auto. }
    destruct (occb (cy cf + b) (cx cf + a)) eqn:O.
    + destruct (a * a + b * b <=? r_col cf * r_col cf); [discriminate|].
      apply X; [|assumption]. unfold upd.
      assert (Oab : occp (a, b) = true) by exact O.
      destruct Hs as [(A & B & D)|(A & B & D & E)].
      * rewrite A. cbn [Z.eqb]. rewrite Bool.orb_true_r. right. cbn [c_sq c_dx c_dy].
        split; [reflexivity|]. split; [right; reflexivity|]. split; [assumption|].
        intros p [Hp| ->] Ho; [rewrite (D p Hp) in Ho; discriminate|]. unfold sq; cbn [fst snd]. lia.
      * pose proof (sq_nonneg (c_dx s, c_dy s)). unfold sq in H; cbn [fst snd] in H.
        destruct ((a * a + b * b <? c_sq s) || (c_sq s =? -1)) eqn:L; right; cbn [c_sq c_dx c_dy].
        -- split; [reflexivity|]. split; [right; reflexivity|]. split; [assumption|].
           intros p [Hp| ->] Ho; [specialize (E p Hp Ho)|]; unfold sq in *; cbn [fst snd] in *; lia.
        -- split; [assumption|]. split; [left; assumption|]. split; [assumption|].
           intros p [Hp| ->] Ho; [apply E; assumption|]. unfold sq; cbn [fst snd]. lia.
    + apply X; [|assumption].
      assert (Oab : occp (a, b) = false) by exact O.
      destruct Hs as [(A & B & D)|(A & B & D & E)]; [left|right].
      * split; [assumption|]. split; [assumption|]. intros p [Hp| ->]; auto.
      * split; [assumption|]. split; [left; assumption|]. split; [assumption|].
        intros p [Hp| ->] Ho; [auto|congruence].
Qed.

(** A second scan of the same cells changes nothing. *)
Lemma scan_stable l : forall s, c_sq s = -1 /\ (forall p, In p l -> occp p = false) \/
   (0 <= c_sq s /\ forall p, In p l -> occp p = true -> c_sq s <= sq p) ->
  fst (scan l s) = false -> snd (scan l s) = s.
Proof.
  induction l as [|[a b] l IH]; intros s Hs; cbn [scan]; intros Hf; [reflexivity|].
  destruct (occb (cy cf + b) (cx cf + a)) eqn:O.
  - destruct (a * a + b * b <=? r_col cf * r_col cf); [discriminate|].
    assert (Oab : occp (a, b) = true) by exact O.
    assert (U : upd s a b = s).
    { unfold upd. destruct Hs as [[A D]|[A E]].
      - rewrite (D (a, b) (or_introl eq_refl)) in Oab. discriminate.
      - specialize (E (a, b) (or_introl eq_refl) Oab). unfold sq in E; cbn [fst snd] in E.
        destruct ((a * a + b * b <? c_sq s) || (c_sq s =? -1)) eqn:L; [lia|reflexivity]. }
    rewrite U in *. apply IH; [|assumption].
    destruct Hs as [[A D]|[A E]]; [left|right]; (split; [assumption|]); intros p Hp.
    + apply D; right; assumption.
    + apply E; right; assumption.
  - apply IH; [|assumption].
    destruct Hs as [[A D]|[A E]]; [left|right]; (split; [assumption|]); intros p Hp.
    + apply D; right; assumption.
    + apply E; right; assumption.
Qed.

Lemma search_twice : fst (scan offsets cst0) = false ->
  scan offsets (snd (scan offsets cst0)) = scan offsets cst0.
Proof.
  intros Hf. pose proof (scan_state offsets cst0 (fun _ => False)) as H.
  assert (S0 : st_ok (fun _ => False) cst0) by (left; repeat split; intros p []).
  specialize (H S0 Hf).
  assert (Hn : fst (scan offsets (snd (scan offsets cst0))) = false).
  { destruct (fst (scan offsets (snd (scan offsets cst0)))) eqn:E; [|reflexivity].
    apply scan_hit in E. apply (scan_hit offsets cst0) in E. congruence. }
  pose proof (scan_stable offsets (snd (scan offsets cst0))) as Q.
  rewrite (surjective_pairing (scan offsets (snd (scan offsets cst0)))), Hn, Q; [|clear Q|exact Hn].
  - rewrite (surjective_pairing (scan offsets cst0)), Hf. reflexivity.
  - destruct H as [(A & B & D)|(A & B & D & E)].
    + left. split; [assumption|]. intros p Hp. apply D. right; assumption.
    + right. split; [rewrite A; nia|]. intros p Hp. apply E. right; assumption.
Qed.
End Coll.
