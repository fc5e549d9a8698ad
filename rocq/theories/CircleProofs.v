(** The midpoint-circle walk of collision.cpp:166-214: exact set of visited offsets. *)
From Coq Require Import ZArith Lia List ZifyBool.
From Verif Require Import Outcome Num GridModel GridProofs CollisionModel.
Import ListNotations.
Ltac Zify.zify_post_hook ::= idtac.
Local Open Scope Z_scope.

(** In the canonical quadrant X >= 1, y >= 0. *)
Definition cond (r X y : Z) : Prop :=
  - Z.max X y <= X * X + y * y - r * r < Z.max X y /\
  ~ (X = y /\ X * X + y * y - r * r = X - 1).

(** Invariant of the walk; [X] is [-x] in the code. *)
Definition winv (r X y err : Z) : Prop :=
  1 <= r /\ 0 <= X <= r /\ 0 <= y <= r + 1 /\ err = (X - 1) * (X - 1) + (y + 1) * (y + 1) - r * r /\
  (1 <= X -> cond r X y) /\ (X = 0 -> - y <= y * y - r * r).

Lemma cond_y_le r X y : 1 <= r -> 1 <= X -> 0 <= y -> cond r X y -> y <= r.
Proof.
  intros Hr HX Hy [H _]. destruct (Z_le_gt_dec y r) as [|C]; [assumption|exfalso].
  assert (y * y - r * r >= y) by nia.
  assert (X * X >= X) by nia. lia.
Qed.

(** The three kinds of step, on (X, y). *)
Definition wstep (X y err : Z) : Z * Z * Z :=
  if err <=? y then
    if (err >? - X) || (err + 2 * (y + 1) + 1 >? y + 1)
    then (X - 1, y + 1, err + 2 * (y + 1) + 1 + 2 * (- X + 1) + 1)
    else (X, y + 1, err + 2 * (y + 1) + 1)
  else (X - 1, y, err + 2 * (- X + 1) + 1).

Lemma wstep_err_bounds r X y err : winv r X y err -> 1 <= X ->
  - (3 * r + 2) <= err <= 3 * r + 2.
Proof.
  intros (Hr & HX & Hy & He & Hc & _) H1. specialize (Hc H1).
  pose proof (cond_y_le r X y Hr H1 ltac:(lia) Hc). destruct Hc as [Hc _].
  assert (err = (X * X + y * y - r * r) - 2 * X + 2 * y + 2) by (rewrite He; ring). lia.
Qed.

(** The model's step is [wstep] when nothing overflows. *)
Lemma walk_step_eq r X y err : winv r X y err -> 1 <= X -> r <= 100000000 ->
  walk_step (- X) y err = let '(X', y', e') := wstep X y err in Ok (- X', y', e').
Proof.
  intros HI H1 Hr. pose proof (wstep_err_bounds r X y err HI H1).
  destruct HI as (Hr1 & HX & Hy & He & Hc & _).
  pose proof (cond_y_le r X y Hr1 H1 ltac:(lia) (Hc H1)).
  unfold walk_step, wstep.
  destruct (err <=? y) eqn:E1.
  - rewrite (int_ck_ok (y + 1)) by (unfold two31; lia). cbn [bind].
    rewrite (int_ck_ok (2 * (y + 1))) by (unfold two31; lia). cbn [bind].
    rewrite (int_ck_ok (2 * (y + 1) + 1)) by (unfold two31; lia). cbn [bind].
    rewrite (int_ck_ok (err + (2 * (y + 1) + 1))) by (unfold two31; lia). cbn [bind].
    replace (err + (2 * (y + 1) + 1)) with (err + 2 * (y + 1) + 1) by lia.
    destruct ((err >? - X) || (err + 2 * (y + 1) + 1 >? y + 1)) eqn:E2.
    + rewrite (int_ck_ok (- X + 1)) by (unfold two31; lia). cbn [bind].
      rewrite (int_ck_ok (2 * (- X + 1))) by (unfold two31; lia). cbn [bind].
      rewrite (int_ck_ok (2 * (- X + 1) + 1)) by (unfold two31; lia). cbn [bind].
      rewrite int_ck_ok by (unfold two31; lia). cbn [bind]. f_equal. f_equal; [f_equal|]; lia.
    + reflexivity.
  - cbn [bind]. destruct ((err >? - X) || (err >? y)) eqn:E2; [|lia].
    rewrite (int_ck_ok (- X + 1)) by (unfold two31; lia). cbn [bind].
    rewrite (int_ck_ok (2 * (- X + 1))) by (unfold two31; lia). cbn [bind].
    rewrite (int_ck_ok (2 * (- X + 1) + 1)) by (unfold two31; lia). cbn [bind].
    rewrite int_ck_ok by (unfold two31; lia). cbn [bind]. f_equal. f_equal; [f_equal|]; lia.
Qed.

Definition d2 (r X y : Z) : Z := X * X + y * y - r * r.
Lemma d2_y r X y : d2 r X (y + 1) = d2 r X y + 2 * y + 1.
Proof. unfold d2; ring. Qed.
Lemma d2_x r X y : d2 r (X - 1) y = d2 r X y - 2 * X + 1.
Proof. unfold d2; ring. Qed.

Lemma wstep_inv r X y err : winv r X y err -> 1 <= X ->
  let '(X', y', e') := wstep X y err in
  winv r X' y' e' /\ X' <= X /\ y <= y' /\ (X' + y <= X + y' - 1).
Proof.
  intros (Hr & HX & Hy & He & Hc & _) H1. specialize (Hc H1).
  pose proof (cond_y_le r X y Hr H1 ltac:(lia) Hc) as Hyr. destruct Hc as [Hc Hx].
  fold (d2 r X y) in Hc, Hx.
  assert (Ed : err = d2 r X y - 2 * X + 2 * y + 2) by (rewrite He; unfold d2; ring).
  unfold wstep. destruct (err <=? y) eqn:E1.
  - destruct ((err >? - X) || (err + 2 * (y + 1) + 1 >? y + 1)) eqn:E2.
    + assert (D : d2 r (X - 1) (y + 1) = err) by (rewrite d2_y, d2_x; lia).
      split; [|lia]. unfold winv, cond. fold (d2 r (X - 1) (y + 1)).
      replace ((y + 1) * (y + 1) - r * r) with (d2 r 0 (y + 1)) by (unfold d2; ring).
      split; [lia|]. split; [lia|]. split; [lia|]. split; [rewrite He; ring|].
      split; [intros; lia|]. intros C. replace 0 with (X - 1) by lia. rewrite D. lia.
    + assert (D := d2_y r X y).
      split; [|lia]. unfold winv, cond. fold (d2 r X (y + 1)).
      replace ((y + 1) * (y + 1) - r * r) with (d2 r 0 (y + 1)) by (unfold d2; ring).
      split; [lia|]. split; [lia|]. split; [lia|]. split; [rewrite He; ring|].
      split; [intros; lia|]. intros C. lia.
  - assert (D := d2_x r X y).
    split; [|lia]. unfold winv, cond. fold (d2 r (X - 1) y).
    replace (y * y - r * r) with (d2 r 0 y) by (unfold d2; ring).
    split; [lia|]. split; [lia|]. split; [lia|]. split; [rewrite He; ring|].
    split; [intros; lia|]. intros C. replace 0 with (X - 1) by lia. lia.
Qed.

(** Diagonals: the value of [d2] along (X+t, y+t). *)
Lemma diag_unique r X y X' y' : 0 <= X -> 0 <= y -> 0 <= X' -> 0 <= y' -> X' - X = y' - y -> X <= X' ->
  - Z.max X y <= d2 r X y -> d2 r X' y' < Z.max X' y' -> 1 <= Z.max X y -> X' = X.
Proof.
  intros HX Hy HX' Hy' Hd Hle H1 H2 Hm.
  destruct (Z.eq_dec X' X) as [|N]; [assumption|exfalso].
  set (t := X' - X) in *. assert (1 <= t) by lia.
  assert (X' = X + t) by lia. assert (y' = y + t) by lia.
  assert (E : d2 r X' y' = d2 r X y + 2 * t * (X + y + t)) by (rewrite H0, H3; unfold d2; ring).
  assert (2 * t * (X + y + t) >= 2 * (X + y + t)) by nia.
  lia.
Qed.
Lemma diag_high r X y t : 0 <= X -> 0 <= y -> 0 <= t -> Z.max X y <= d2 r X y ->
  Z.max (X + t) (y + t) <= d2 r (X + t) (y + t).
Proof.
  intros. assert (E : d2 r (X + t) (y + t) = d2 r X y + 2 * t * (X + y + t)) by (unfold d2; ring).
  assert (0 <= t * (X + y + t)) by nia.
  assert (t <= 2 * t * (X + y + t) \/ t = 0) by nia. lia.
Qed.

(** No cell satisfying [cond] is skipped by a diagonal step. *)
Lemma no_skip r X y A B : 1 <= X -> 0 <= y ->
  1 <= A -> 0 <= B -> cond r A B -> B - A = y - X + 1 ->
  (* the cell above is outside, the cell to the side is inside *)
  (X = y + 1 /\ d2 r X (y + 1) = X - 1 \/ Z.max X (y + 1) <= d2 r X (y + 1)) ->
  d2 r (X - 1) y < - Z.max (X - 1) y -> False.
Proof.
  intros HX Hy HA HB [Hc Hx] Hk Hout Hin. fold (d2 r A B) in Hc, Hx.
  destruct (Z_lt_le_dec A X) as [L|L].
  - (* A <= X - 1: further inside *)
    set (t := X - 1 - A). assert (0 <= t) by lia.
    assert (E : d2 r (X - 1) y = d2 r A B + 2 * t * (A + B + t)).
    { replace (X - 1) with (A + t) by lia. replace y with (B + t) by lia. unfold d2; ring. }
    assert (2 * t * (A + B + t) >= 0) by nia. lia.
  - set (t := A - X). assert (0 <= t) by lia.
    assert (E : d2 r A B = d2 r X (y + 1) + 2 * t * (X + y + 1 + t)).
    { replace A with (X + t) by lia. replace B with (y + 1 + t) by lia. unfold d2; ring. }
    destruct (Z.eq_dec t 0) as [T|T].
    + rewrite T in E. assert (A = X) by lia. assert (B = y + 1) by lia. lia.
    + assert (2 * t * (X + y + 1 + t) >= 2 * (X + y + 1 + t)) by nia. lia.
Qed.

(** The canonical cells visited by the walk. *)
Fixpoint walk (fuel : nat) (X y err : Z) : list (Z * Z) :=
  match fuel with
  | O => []
  | S f => if 0 <? X then
             (X, y) :: (let '(X', y', e') := wstep X y err in walk f X' y' e')
           else []
  end.

Lemma walk_sound r fuel : forall X y err a b, winv r X y err -> In (a, b) (walk fuel X y err) ->
  1 <= a <= r /\ 0 <= b <= r /\ cond r a b.
Proof.
  induction fuel as [|f IH]; intros X y err a b HI Hin; [destruct Hin|].
  cbn [walk] in Hin. destruct (Z.ltb_spec 0 X); [|destruct Hin].
  pose proof (wstep_inv r X y err HI ltac:(lia)) as Hs.
  destruct Hin as [E|Hin].
  - injection E as <- <-. destruct HI as (Hr & HX & Hy & He & Hc & _).
    specialize (Hc ltac:(lia)). pose proof (cond_y_le r X y Hr ltac:(lia) ltac:(lia) Hc). split; [lia|]. split; [lia|exact Hc].
  - destruct (wstep X y err) as [[X' y'] e']. apply (IH X' y' e' a b); tauto.
Qed.

Lemma walk_complete r fuel : forall X y err A B, winv r X y err -> X + (r + 1 - y) < Z.of_nat fuel ->
  1 <= A -> 0 <= B -> cond r A B -> y - X <= B - A -> In (A, B) (walk fuel X y err).
Proof.
  induction fuel as [|f IH]; intros X y err A B HI Hf HA HB HC Hk.
  { destruct HI as (_ & HX & Hy & _). lia. }
  cbn [walk]. destruct (Z.ltb_spec 0 X) as [HX0|HX0].
  - assert (H1 : 1 <= X) by lia.
    pose proof (wstep_inv r X y err HI H1) as Hs.
    destruct (Z.eq_dec (B - A) (y - X)) as [E|N].
    + left. destruct HI as (Hr & HX & Hy & He & Hc & _). specialize (Hc H1).
      destruct Hc as [Hc _]. destruct HC as [HC _]. fold (d2 r X y) in Hc. fold (d2 r A B) in HC.
      destruct (Z_le_gt_dec X A).
      * assert (A = X) by (apply (diag_unique r X y A B); lia). f_equal; lia.
      * assert (X = A) by (apply (diag_unique r A B X y); lia). f_equal; lia.
    + right. destruct (Z.eq_dec (B - A) (y - X + 1)) as [E1|N1].
      * (* next diagonal: either the step lands on it, or it is skipped and empty *)
        unfold wstep in *. destruct (err <=? y) eqn:L1.
        -- destruct ((err >? - X) || (err + 2 * (y + 1) + 1 >? y + 1)) eqn:L2.
           ++ exfalso. destruct HI as (Hr & HX & Hy & He & Hc & _). specialize (Hc H1).
              destruct Hc as [Hc Hx]. fold (d2 r X y) in Hc, Hx.
              assert (Ed : err = d2 r X y - 2 * X + 2 * y + 2) by (rewrite He; unfold d2; ring).
              apply (no_skip r X y A B); auto; try lia.
              ** rewrite d2_y. lia.
              ** rewrite d2_x. lia.
           ++ apply IH; try tauto; lia.
        -- apply IH; try tauto; lia.
      * destruct (wstep X y err) as [[X' y'] e'] eqn:W.
        assert (X' + y <= X + y' - 1) by tauto.
        assert (y' - X' <= y - X + 2).
        { unfold wstep in W. destruct (err <=? y); [destruct (_ || _)|]; injection W; lia. }
        apply IH; try tauto; lia.
  - exfalso. destruct HI as (Hr & HX & Hy & He & Hc & H0). specialize (H0 ltac:(lia)).
    destruct HC as [HC _].
    assert (B >= y + A) by lia.
    assert (B * B >= (y + A) * (y + A)) by nia.
    assert (A * A >= A) by nia.
    assert (y * A >= y) by nia.
    set (t := B - (y + A)) in *. assert (B = y + A + t) by lia. assert (0 <= t) by lia.
    assert (B * B - B >= y * y + 2 * (y * A) + A * A - y - A).
    { rewrite H4. nia. }
    lia.
Qed.

(** The whole circle. *)
Lemma winv_start r : 1 <= r -> winv r r 0 (2 - 2 * r).
Proof.
  intros Hr. unfold winv, cond. repeat split; try lia.
Qed.

Lemma cond_key r A B : 1 <= r -> 1 <= A -> 0 <= B -> cond r A B -> - r <= B - A.
Proof.
  intros Hr HA HB [HC _]. destruct (Z_le_gt_dec (- r) (B - A)) as [|G]; [assumption|exfalso].
  assert (A >= r + 1 + B) by lia. assert (A * A - A >= r * r) by nia. nia.
Qed.

Lemma walk_exact r a b : 1 <= r ->
  In (a, b) (walk (S (Z.to_nat (2 * r + 1))) r 0 (2 - 2 * r)) <-> (1 <= a /\ 0 <= b /\ cond r a b).
Proof.
  intros Hr. split.
  - intros H. apply (walk_sound r _ r 0 (2 - 2 * r)) in H; [|apply winv_start; assumption].
    intuition lia.
  - intros (Ha & Hb & Hc). apply (walk_complete r); auto.
    + apply winv_start; assumption.
    + lia.
    + pose proof (cond_key r a b Hr Ha Hb Hc). lia.
Qed.

(** Four rotated copies of the canonical cells: offsets (dj, di) in visiting order. *)
Definition rot4 (p : Z * Z) : list (Z * Z) :=
  let '(X, y) := p in [(X, y); (- y, X); (- X, - y); (y, - X)].
Definition ring (r : Z) : list (Z * Z) :=
  flat_map rot4 (walk (S (Z.to_nat (2 * r + 1))) r 0 (2 - 2 * r)).

(** The set of offsets on the digital circle of radius r, stated without the algorithm. *)
Definition ring_set (r a b : Z) : Prop :=
  let m := Z.max (Z.abs a) (Z.abs b) in
  - m <= a * a + b * b - r * r < m /\
  ~ (Z.abs a = Z.abs b /\ a * a + b * b - r * r = m - 1).

Lemma ring_exact r a b : 1 <= r -> In (a, b) (ring r) <-> ring_set r a b.
Proof.
  intros Hr. unfold ring. rewrite in_flat_map. split.
  - intros [[X y] [Hw Hin]]. apply walk_exact in Hw; [|assumption]. destruct Hw as (HX & Hy & [Hc Hx]).
    unfold ring_set. cbn [rot4] in Hin.
    destruct Hin as [E|[E|[E|[E|[]]]]]; injection E as <- <-;
      rewrite ?Z.abs_opp, (Z.abs_eq X), (Z.abs_eq y) by lia; split; try lia; nia.
  - intros H.
    assert (N : ~ (a = 0 /\ b = 0)).
    { intros [-> ->]. unfold ring_set in H. cbn in H. nia. }
    assert (D : (1 <= a /\ 0 <= b) \/ (a <= 0 /\ 1 <= b) \/ (a <= -1 /\ b <= 0) \/ (0 <= a /\ b <= -1)) by lia.
    unfold ring_set in H.
    destruct D as [[P Q]|[[P Q]|[[P Q]|[P Q]]]].
    + exists (a, b). rewrite walk_exact by assumption. split; [|cbn; auto].
      rewrite !Z.abs_eq in H by lia. unfold cond. split; [lia|]. split; [lia|]. lia.
    + exists (b, - a). rewrite walk_exact by assumption.
      split; [|cbn; rewrite Z.opp_involutive; auto].
      rewrite (Z.abs_neq a), (Z.abs_eq b) in H by lia. unfold cond. split; [lia|]. split; [lia|].
      replace (b * b + - a * - a) with (a * a + b * b) by ring. lia.
    + exists (- a, - b). rewrite walk_exact by assumption.
      split; [|cbn; rewrite !Z.opp_involutive; auto].
      rewrite (Z.abs_neq a), (Z.abs_neq b) in H by lia. unfold cond. split; [lia|]. split; [lia|].
      replace (- a * - a + - b * - b) with (a * a + b * b) by ring. lia.
    + exists (- b, a). rewrite walk_exact by assumption.
      split; [|cbn; rewrite !Z.opp_involutive; auto].
      rewrite (Z.abs_eq a), (Z.abs_neq b) in H by lia. unfold cond. split; [lia|]. split; [lia|].
      replace (- b * - b + a * a) with (a * a + b * b) by ring. lia.
Qed.

Lemma ring_bound r a b : 1 <= r -> In (a, b) (ring r) -> - r <= a <= r /\ - r <= b <= r.
Proof.
  intros Hr. unfold ring. rewrite in_flat_map. intros [[X y] [Hw Hin]].
  apply (walk_sound r) in Hw; [|apply winv_start; assumption].
  cbn [rot4] in Hin. destruct Hin as [E|[E|[E|[E|[]]]]]; injection E as <- <-; lia.
Qed.
Lemma ring_sq_bound r a b : 1 <= r -> In (a, b) (ring r) -> a * a + b * b < r * r + r.
Proof.
  intros Hr H. pose proof (ring_bound r a b Hr H). apply ring_exact in H; [|assumption].
  unfold ring_set in H. lia.
Qed.
