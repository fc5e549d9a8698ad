(** The ray tracing of mapping.cpp visits exactly the digital segment. *)
From Coq Require Import ZArith List Lia ZifyBool Permutation.
From Verif Require Import Outcome Num GridModel GridProofs NumericsModel MappingModel Spec SpecMapping.
Import ListNotations.
Local Open Scope Z_scope.
Ltac Zify.zify_post_hook ::= idtac.

Section Ray.
Context {T : Type} {NT : Num T}.
Variable m : mapper T.

Local Notation free_all := (SpecMapping.free_all m).
Lemma free_all_app g l1 l2 : free_all g (l1 ++ l2) = let* g := free_all g l1 in free_all g l2.
Proof.
  revert g; induction l1 as [|[x y] l1 IH]; intros g; cbn; [reflexivity|].
  destruct (updateCell m g x y (mp_free m)); cbn; auto.
Qed.

(** [n] consecutive integers from [a] *)
Fixpoint zrun (a : Z) (n : nat) : list Z := match n with O => [] | S n' => a :: zrun (a + 1) n' end.
Lemma in_zrun n : forall a i, In i (zrun a n) <-> a <= i < a + Z.of_nat n.
Proof. induction n as [|n IH]; intros a i; cbn [zrun In]; [lia|]. rewrite IH. lia. Qed.
Lemma zrun_nodup n : forall a, NoDup (zrun a n).
Proof. induction n as [|n IH]; intros a; cbn; constructor; [rewrite in_zrun; lia|apply IH]. Qed.
Lemma zrun_length n : forall a, length (zrun a n) = n.
Proof. induction n as [|n IH]; intros a; cbn; auto. Qed.
Lemma zrun_shift n : forall a k, zrun (a + k) n = map (fun i => i + k) (zrun a n).
Proof.
  induction n as [|n IH]; intros a k; cbn; [reflexivity|]. f_equal. rewrite <- IH. f_equal. lia.
Qed.

(** Offset of the minor axis: nearest integer to n i / m, ties down. *)
Definition kk (mm nn i : Z) : Z := (2 * nn * i + mm - 1) / (2 * mm).
Lemma kk_near mm nn i : 0 < mm -> 2 * nn * i - mm <= 2 * mm * kk mm nn i < 2 * nn * i + mm.
Proof.
  intros Hm. unfold kk. pose proof (Z.div_mod (2 * nn * i + mm - 1) (2 * mm) ltac:(lia)).
  pose proof (Z.mod_pos_bound (2 * nn * i + mm - 1) (2 * mm) ltac:(lia)).
  set (q := _ / _) in *. set (r := _ mod _) in *. lia.
Qed.
Lemma near_unique mm nn i k : 0 < mm -> 2 * nn * i - mm <= 2 * mm * k < 2 * nn * i + mm -> k = kk mm nn i.
Proof. intros Hm H. pose proof (kk_near mm nn i Hm). nia. Qed.

(** ** The two sloped loops, with the axes abstracted *)
Section Loop.
Variable cellof : Z -> Z -> Z * Z.     (* major, minor *)
Definition upd (g : grid T) (p q : Z) := updateCell m g (fst (cellof p q)) (snd (cellof p q)) (mp_free m).
Fixpoint gen_loop (n : nat) (g : grid T) (skip : bool) (p q D dp dq qi : Z) : res (grid T) :=
  match n with
  | O => Ok g
  | S n' =>
      let* g := (if skip then Ok g else upd g p q) in
      let* ' (q, D) := (if 0 <? D then
                          let* q := int_ck (q + qi) in
                          let* t := int_ck (2 * dp) in
                          let* D := int_ck (D - t) in Ok (q, D)
                        else Ok (q, D)) in
      let* t := int_ck (2 * dq) in
      let* D := int_ck (D + t) in
      gen_loop n' g false (p + 1) q D dp dq qi
  end.

Lemma gen_loop_cells (n : nat) : forall g (skip : bool) p0 q0 mm nn s i,
  0 <= nn <= mm -> 0 < mm < 2 ^ 30 -> s = 1 \/ s = -1 ->
  - two31 <= q0 < two31 -> - two31 <= q0 + s * nn < two31 ->
  0 <= i -> i + Z.of_nat n <= mm -> skip = (i =? 0) ->
  gen_loop n g skip (p0 + i) (q0 + s * kk mm nn i) (2 * nn * (i + 1) - mm - 2 * mm * kk mm nn i) mm nn s =
  free_all g (map (fun j => cellof (p0 + j) (q0 + s * kk mm nn j)) (if skip then zrun (i + 1) (pred n) else zrun i n)).
Proof.
  induction n as [|n IH]; intros g skip p0 q0 mm nn s i Hn Hm Hs Q0 Q1 Hi Hin Hsk.
  - cbn. destruct skip; reflexivity.
  - cbn [gen_loop].
    pose proof (kk_near mm nn i ltac:(lia)) as K. pose proof (kk_near mm nn (i + 1) ltac:(lia)) as K1.
    set (k := kk mm nn i) in *. set (k1 := kk mm nn (i + 1)) in *.
    assert (KB : 0 <= k1 <= nn) by nia.
    change (2 ^ 30) with 1073741824 in *. unfold two31 in *.
    assert (REST : forall g0, (let* ' (q, D) := (if 0 <? 2 * nn * (i + 1) - mm - 2 * mm * k
         then let* q := int_ck (q0 + s * k + s) in let* t := int_ck (2 * mm) in
              let* D := int_ck (2 * nn * (i + 1) - mm - 2 * mm * k - t) in Ok (q, D)
         else Ok (q0 + s * k, 2 * nn * (i + 1) - mm - 2 * mm * k)) in
      let* t := int_ck (2 * nn) in let* D0 := int_ck (D + t) in
      gen_loop n g0 false (p0 + i + 1) q D0 mm nn s) =
      free_all g0 (map (fun j => cellof (p0 + j) (q0 + s * kk mm nn j)) (zrun (i + 1) n))).
    { intros g0.
      assert (E : exists D, 
        (if 0 <? 2 * nn * (i + 1) - mm - 2 * mm * k
         then let* q := int_ck (q0 + s * k + s) in let* t := int_ck (2 * mm) in
              let* D := int_ck (2 * nn * (i + 1) - mm - 2 * mm * k - t) in Ok (q, D)
         else Ok (q0 + s * k, 2 * nn * (i + 1) - mm - 2 * mm * k)) = Ok (q0 + s * k1, D) /\
        D + 2 * nn = 2 * nn * (i + 1 + 1) - mm - 2 * mm * k1 /\ - 2 * mm <= D + 2 * nn <= 2 * mm).
      { destruct (Z.ltb_spec 0 (2 * nn * (i + 1) - mm - 2 * mm * k)) as [P|P].
        - assert (E1 : k1 = k + 1) by nia.
          assert (KQ : - 2147483648 <= q0 + s * k + s < 2147483648).
          { replace (q0 + s * k + s) with (q0 + s * k1) by nia. destruct Hs as [-> | ->]; lia. }
          rewrite (int_ck_ok _ KQ), int_ck_ok by (unfold two31; lia). cbn [bind].
          rewrite int_ck_ok by (unfold two31; nia). cbn [bind].
          eexists. split; [f_equal; f_equal; rewrite E1; ring|]. split; [rewrite E1; ring|]. nia.
        - assert (E1 : k1 = k) by nia. eexists. split; [rewrite E1; reflexivity|]. split; [rewrite E1; ring|]. nia. }
      destruct E as (D & E1 & E2 & E3). rewrite E1. cbn [bind].
      rewrite int_ck_ok by (unfold two31; lia). cbn [bind].
      rewrite int_ck_ok by (unfold two31; lia). cbn [bind]. rewrite E2.
      replace (p0 + i + 1) with (p0 + (i + 1)) by lia. unfold k1.
      rewrite (IH g0 false p0 q0 mm nn s (i + 1)); auto; try lia. }
    subst skip. destruct (Z.eqb_spec i 0) as [->|Ni].
    + cbn [bind pred]. apply REST.
    + cbn [zrun map free_all]. unfold upd. fold k. destruct (cellof (p0 + i) (q0 + s * k)) as [cx cy]. cbn [fst snd].
      destruct (updateCell m g cx cy (mp_free m)) as [g0| | |]; cbn [bind]; auto.
Qed.
End Loop.

Lemma low_gen n : forall g skip x y D dx dy yi,
  low_loop n m g skip x y D dx dy yi = gen_loop (fun p q => (p, q)) n g skip x y D dx dy yi.
Proof.
  induction n as [|n IH]; intros; cbn [low_loop gen_loop]; [reflexivity|]. unfold upd. cbn [fst snd].
  destruct (if skip then _ else _) as [g0| | |]; cbn [bind]; try reflexivity.
  destruct (if 0 <? D then _ else _) as [[y' D']| | |]; cbn [bind]; try reflexivity.
  destruct (int_ck (2 * dy)) as [t| | |]; cbn [bind]; try reflexivity.
  destruct (int_ck (D' + t)) as [D''| | |]; cbn [bind]; try reflexivity. apply IH.
Qed.
Lemma high_gen n : forall g skip x y D dx dy xi,
  high_loop n m g skip x y D dx dy xi = gen_loop (fun p q => (q, p)) n g skip y x D dy dx xi.
Proof.
  induction n as [|n IH]; intros; cbn [high_loop gen_loop]; [reflexivity|]. unfold upd. cbn [fst snd].
  destruct (if skip then _ else _) as [g0| | |]; cbn [bind]; try reflexivity.
  destruct (if 0 <? D then _ else _) as [[y' D']| | |]; cbn [bind]; try reflexivity.
  destruct (int_ck (2 * dx)) as [t| | |]; cbn [bind]; try reflexivity.
  destruct (int_ck (D' + t)) as [D''| | |]; cbn [bind]; try reflexivity. apply IH.
Qed.

(** Interior cells of a line along the major axis, from the lower end. *)
Definition sgn (a b : Z) : Z := if b <? a then -1 else 1.
Definition slope_cells (cellof : Z -> Z -> Z * Z) (p0 q0 p1 q1 : Z) : list (Z * Z) :=
  map (fun j => cellof (p0 + j) (q0 + sgn q0 q1 * kk (p1 - p0) (Z.abs (q1 - q0)) j)) (zrun 1 (pred (Z.to_nat (p1 - p0)))).

Definition coord (z : Z) : Prop := 0 <= z < 2 ^ 30.

Lemma kk_0 mm nn : 0 < mm -> kk mm nn 0 = 0.
Proof. intros. symmetry. apply near_unique; lia. Qed.
Lemma kk_end mm nn : 0 < mm -> 0 <= nn -> kk mm nn mm = nn.
Proof. intros. symmetry. apply near_unique; nia. Qed.

Ltac ck := rewrite int_ck_ok by (unfold two31; lia); cbn [bind].

Lemma lineLow_cells g x0 y0 x1 y1 : coord x0 -> coord y0 -> coord x1 -> coord y1 ->
  x0 < x1 -> Z.abs (y1 - y0) <= x1 - x0 ->
  lineLow m g x0 y0 x1 y1 = free_all g (slope_cells (fun p q => (p, q)) x0 y0 x1 y1).
Proof.
  unfold coord. change (2 ^ 30) with 1073741824. intros X0 Y0 X1 Y1 Hx Hs. unfold lineLow. ck. ck.
  assert (E : (if y1 - y0 <? 0 then let* dy := int_ck (- (y1 - y0)) in Ok (-1, dy) else Ok (1, y1 - y0)) =
              Ok (sgn y0 y1, Z.abs (y1 - y0))).
  { unfold sgn. destruct (Z.ltb_spec (y1 - y0) 0), (Z.ltb_spec y1 y0); try lia.
    - ck. f_equal. f_equal. lia.
    - f_equal. f_equal. lia. }
  rewrite E. cbn [bind]. ck. ck. rewrite low_gen. unfold slope_cells.
  pose proof (gen_loop_cells (fun p q => (p, q)) (Z.to_nat (x1 - x0)) g true x0 y0 (x1 - x0) (Z.abs (y1 - y0)) (sgn y0 y1) 0) as H.
  rewrite kk_0, !Z.add_0_r, !Z.mul_0_r, !Z.add_0_r, Z.sub_0_r in H by lia.
  change (0 + 1) with 1 in H. etransitivity; [|apply H]; clear H; try (unfold two31, sgn; change (2 ^ 30) with 1073741824; destruct (Z.ltb_spec y1 y0); lia).
  f_equal. lia.
Qed.
Lemma lineHigh_cells g x0 y0 x1 y1 : coord x0 -> coord y0 -> coord x1 -> coord y1 ->
  y0 < y1 -> Z.abs (x1 - x0) <= y1 - y0 ->
  lineHigh m g x0 y0 x1 y1 = free_all g (slope_cells (fun p q => (q, p)) y0 x0 y1 x1).
Proof.
  unfold coord. change (2 ^ 30) with 1073741824. intros X0 Y0 X1 Y1 Hx Hs. unfold lineHigh. ck. ck.
  assert (E : (if x1 - x0 <? 0 then let* dx := int_ck (- (x1 - x0)) in Ok (-1, dx) else Ok (1, x1 - x0)) =
              Ok (sgn x0 x1, Z.abs (x1 - x0))).
  { unfold sgn. destruct (Z.ltb_spec (x1 - x0) 0), (Z.ltb_spec x1 x0); try lia.
    - ck. f_equal. f_equal. lia.
    - f_equal. f_equal. lia. }
  rewrite E. cbn [bind]. ck. ck. rewrite high_gen. unfold slope_cells.
  pose proof (gen_loop_cells (fun p q => (q, p)) (Z.to_nat (y1 - y0)) g true y0 x0 (y1 - y0) (Z.abs (x1 - x0)) (sgn x0 x1) 0) as H.
  rewrite kk_0, !Z.add_0_r, !Z.mul_0_r, !Z.add_0_r, Z.sub_0_r in H by lia.
  change (0 + 1) with 1 in H. etransitivity; [|apply H]; clear H; try (unfold two31, sgn; change (2 ^ 30) with 1073741824; destruct (Z.ltb_spec x1 x0); lia).
  f_equal. lia.
Qed.

(** [n] cells from (x, y) in steps of (xi, yi) *)
Definition step_cells (n : nat) (x y xi yi : Z) : list (Z * Z) :=
  map (fun i => (x + i * xi, y + i * yi)) (zrun 0 n).
Lemma step_cells_S n x y xi yi : step_cells (S n) x y xi yi = (x, y) :: step_cells n (x + xi) (y + yi) xi yi.
Proof.
  unfold step_cells. cbn [zrun map]. f_equal; [f_equal; lia|].
  rewrite (zrun_shift n 0 1), map_map. apply map_ext. intros i. f_equal; ring.
Qed.
Lemma straight_cells n : forall g x y xi yi, straight n m g x y xi yi = free_all g (step_cells n x y xi yi).
Proof.
  induction n as [|n IH]; intros; [reflexivity|]. rewrite step_cells_S. cbn [straight free_all].
  destruct (updateCell m g x y (mp_free m)); cbn [bind]; auto.
Qed.
Lemma diag_cells n : forall g x y x1 y1 xi yi,
  x1 = x + Z.of_nat n * xi -> y1 = y + Z.of_nat n * yi -> (xi = 1 \/ xi = -1) -> (yi = 1 \/ yi = -1) ->
  coord x -> coord y -> coord x1 -> coord y1 ->
  diag_loop n m g x y x1 y1 xi yi = free_all g (step_cells n x y xi yi).
Proof.
  induction n as [|n IH]; intros g x y x1 y1 xi yi E1 E2 Hx Hy X Y X1 Y1.
  - cbn [diag_loop]. replace (x =? x1) with true by lia. reflexivity.
  - cbn [diag_loop]. replace (x =? x1) with false by nia. replace (y =? y1) with false by nia. cbn [negb andb].
    rewrite step_cells_S. cbn [free_all]. unfold coord in *. change (2 ^ 30) with 1073741824 in *.
    destruct (updateCell m g x y (mp_free m)); cbn [bind]; auto. ck. ck.
    apply IH; auto; unfold coord; change (2 ^ 30) with 1073741824; nia.
Qed.

(** All the cells of the ray, in the order of the updates. *)
Definition ray_cells (x0 y0 x1 y1 : Z) : list (Z * Z) :=
  let dx := x1 - x0 in let dy := y1 - y0 in
  if dx =? 0 then step_cells (Z.to_nat (Z.abs dy)) x0 y0 0 (sgn y0 y1)
  else if dy =? 0 then step_cells (Z.to_nat (Z.abs dx)) x0 y0 (sgn x0 x1) 0
  else if Z.abs dy <? Z.abs dx then
    (x0, y0) :: (if x1 <? x0 then slope_cells (fun p q => (p, q)) x1 y1 x0 y0 else slope_cells (fun p q => (p, q)) x0 y0 x1 y1)
  else if Z.abs dx <? Z.abs dy then
    (x0, y0) :: (if y1 <? y0 then slope_cells (fun p q => (q, p)) y1 x1 y0 x0 else slope_cells (fun p q => (q, p)) y0 x0 y1 x1)
  else step_cells (Z.to_nat (Z.abs dx)) x0 y0 (sgn x0 x1) (sgn y0 y1).

Lemma rayTrace_cells g x0 y0 x1 y1 : coord x0 -> coord y0 -> coord x1 -> coord y1 ->
  rayTrace m g x0 y0 x1 y1 = free_all g (ray_cells x0 y0 x1 y1).
Proof.
  intros X0 Y0 X1 Y1. pose proof X0 as X0'. pose proof X1 as X1'. pose proof Y0 as Y0'. pose proof Y1 as Y1'.
  unfold coord in X0', X1', Y0', Y1'. change (2 ^ 30) with 1073741824 in *.
  unfold rayTrace, ray_cells. ck. ck.
  destruct (Z.eqb_spec (x1 - x0) 0) as [Ex|Ex].
  { unfold sgn. destruct (Z.ltb_spec (y1 - y0) 0), (Z.ltb_spec y1 y0); try lia; rewrite straight_cells; f_equal; f_equal; lia. }
  destruct (Z.eqb_spec (y1 - y0) 0) as [Ey|Ey].
  { unfold sgn. destruct (Z.ltb_spec (x1 - x0) 0), (Z.ltb_spec x1 x0); try lia; rewrite straight_cells; f_equal; f_equal; lia. }
  ck. ck.
  destruct (Z.ltb_spec (Z.abs (y1 - y0)) (Z.abs (x1 - x0))) as [A|A].
  { cbn [free_all]. destruct (updateCell m g x0 y0 (mp_free m)) as [g0| | |]; cbn [bind]; auto.
    destruct (Z.ltb_spec x1 x0); apply lineLow_cells; auto; lia. }
  destruct (Z.ltb_spec (Z.abs (x1 - x0)) (Z.abs (y1 - y0))) as [B|B].
  { cbn [free_all]. destruct (updateCell m g x0 y0 (mp_free m)) as [g0| | |]; cbn [bind]; auto.
    destruct (Z.ltb_spec y1 y0); apply lineHigh_cells; auto; lia. }
  replace (Z.abs (y1 - y0) =? Z.abs (x1 - x0)) with true by lia.
  unfold lineDiag. ck. ck. unfold sgn.
  destruct (Z.ltb_spec (x1 - x0) 0), (Z.ltb_spec x1 x0), (Z.ltb_spec (y1 - y0) 0), (Z.ltb_spec y1 y0); try lia;
    apply diag_cells; auto; rewrite Z2Nat.id by lia; lia.
Qed.

(** ** The list is the digital segment *)
Lemma nearest_kk pa qa pb qb p q : pa < pb ->
  (nearest pa qa pb qb p q <-> q = qa + sgn qa qb * kk (pb - pa) (Z.abs (qb - qa)) (p - pa)).
Proof.
  intros Hp. unfold nearest, sgn. split.
  - intros H. destruct (Z.ltb_spec qb qa) as [L|L].
    + assert (E : qa - q = kk (pb - pa) (Z.abs (qb - qa)) (p - pa)); [|lia].
      apply near_unique; [lia|]. replace (Z.abs (qb - qa)) with (- (qb - qa)) by lia. lia.
    + assert (E : q - qa = kk (pb - pa) (Z.abs (qb - qa)) (p - pa)); [|lia].
      apply near_unique; [lia|]. replace (Z.abs (qb - qa)) with (qb - qa) by lia. lia.
  - intros ->. pose proof (kk_near (pb - pa) (Z.abs (qb - qa)) (p - pa) ltac:(lia)) as K.
    set (k := kk _ _ _) in *. destruct (Z.ltb_spec qb qa) as [L|L].
    + replace (Z.abs (qb - qa)) with (- (qb - qa)) in K by lia. lia.
    + replace (Z.abs (qb - qa)) with (qb - qa) in K by lia. lia.
Qed.

Lemma in_slope cellof p0 q0 p1 q1 c : In c (slope_cells cellof p0 q0 p1 q1) <->
  exists p, p0 < p < p1 /\ c = cellof p (q0 + sgn q0 q1 * kk (p1 - p0) (Z.abs (q1 - q0)) (p - p0)).
Proof.
  unfold slope_cells. rewrite in_map_iff. split.
  - intros (j & E & H). rewrite in_zrun in H. exists (p0 + j). split; [lia|]. rewrite <- E.
    f_equal. f_equal. f_equal. f_equal. lia.
  - intros (p & H & ->). exists (p - p0). rewrite in_zrun. split; [|lia]. f_equal. lia.
Qed.
Lemma in_step n x y xi yi c : In c (step_cells n x y xi yi) <->
  exists i, 0 <= i < Z.of_nat n /\ c = (x + i * xi, y + i * yi).
Proof.
  unfold step_cells. rewrite in_map_iff. split.
  - intros (j & E & H). rewrite in_zrun in H. exists j. split; [lia|auto].
  - intros (p & H & ->). exists p. rewrite in_zrun. split; [reflexivity|lia].
Qed.

Lemma kk_zero mm i : 0 < mm -> kk mm 0 i = 0.
Proof. intros. symmetry. apply near_unique; lia. Qed.
Lemma kk_diag mm i : 0 < mm -> kk mm mm i = i.
Proof. intros. symmetry. apply near_unique; nia. Qed.
Lemma pair_eq (a b c d : Z) : (a, b) = (c, d) <-> a = c /\ b = d.
Proof. split; [intros E; injection E; auto|intros [-> ->]; reflexivity]. Qed.

Lemma ray_cells_on_ray x0 y0 x1 y1 x y : In (x, y) (ray_cells x0 y0 x1 y1) <-> on_ray x0 y0 x1 y1 x y.
Proof.
  unfold ray_cells, on_ray. cbv zeta.
  destruct (Z.eqb_spec (x1 - x0) 0) as [Ex|Ex].
  { rewrite in_step. destruct (Z.leb_spec (Z.abs (y1 - y0)) (Z.abs (x1 - x0))) as [A|A].
    - split; [intros (i & Hi & _); lia|intros [H _]; lia].
    - unfold sgn. destruct (Z.leb_spec y0 y1) as [L|L].
      + rewrite nearest_kk by lia. replace (Z.abs (x1 - x0)) with 0 by lia. rewrite kk_zero by lia.
        destruct (Z.ltb_spec y1 y0); [lia|]. split.
        * intros (i & Hi & E). apply pair_eq in E. lia.
        * intros [H' E]. exists (y - y0). split; [lia|]. apply pair_eq. lia.
      + rewrite nearest_kk by lia. replace (Z.abs (x0 - x1)) with 0 by lia. rewrite kk_zero by lia.
        destruct (Z.ltb_spec y1 y0); [|lia]. split.
        * intros (i & Hi & E). apply pair_eq in E. lia.
        * intros [H' E]. exists (y0 - y). split; [lia|]. apply pair_eq. lia. }
  destruct (Z.eqb_spec (y1 - y0) 0) as [Ey|Ey].
  { rewrite in_step. destruct (Z.leb_spec (Z.abs (y1 - y0)) (Z.abs (x1 - x0))) as [A|A]; [|lia].
    unfold sgn. destruct (Z.leb_spec x0 x1) as [L|L].
    - rewrite nearest_kk by lia. replace (Z.abs (y1 - y0)) with 0 by lia. rewrite kk_zero by lia.
      destruct (Z.ltb_spec x1 x0); [lia|]. split.
      + intros (i & Hi & E). apply pair_eq in E. lia.
      + intros [H'' E]. exists (x - x0). split; [lia|]. apply pair_eq. lia.
    - rewrite nearest_kk by lia. replace (Z.abs (y0 - y1)) with 0 by lia. rewrite kk_zero by lia.
      destruct (Z.ltb_spec x1 x0); [|lia]. split.
      + intros (i & Hi & E). apply pair_eq in E. lia.
      + intros [H' E]. exists (x0 - x). split; [lia|]. apply pair_eq. lia. }
  destruct (Z.ltb_spec (Z.abs (y1 - y0)) (Z.abs (x1 - x0))) as [A|A].
  { destruct (Z.leb_spec (Z.abs (y1 - y0)) (Z.abs (x1 - x0))); [|lia]. cbn [In].
    destruct (Z.ltb_spec x1 x0) as [B|B], (Z.leb_spec x0 x1) as [C|C]; try lia.
    - rewrite in_slope, nearest_kk by lia. split.
      + intros [E|(p & Hp & E)]; apply pair_eq in E.
        * split; [lia|]. destruct E as [-> ->]. rewrite kk_end by lia. unfold sgn. destruct (Z.ltb_spec y y1); lia.
        * split; [lia|]. destruct E as [-> E]. exact E.
      + intros [H'' E]. destruct (Z.eq_dec x x0) as [->|N].
        * left. rewrite kk_end in E by lia. f_equal. rewrite E. unfold sgn. destruct (Z.ltb_spec y0 y1); lia.
        * right. exists x. split; [lia|]. f_equal. exact E.
    - rewrite in_slope, nearest_kk by lia. split.
      + intros [E|(p & Hp & E)]; apply pair_eq in E.
        * split; [lia|]. destruct E as [-> ->]. rewrite Z.sub_diag, kk_0 by lia. lia.
        * split; [lia|]. destruct E as [-> E]. exact E.
      + intros [H' E]. destruct (Z.eq_dec x x0) as [->|N].
        * left. rewrite Z.sub_diag, kk_0 in E by lia. f_equal. lia.
        * right. exists x. split; [lia|]. f_equal. exact E. }
  destruct (Z.ltb_spec (Z.abs (x1 - x0)) (Z.abs (y1 - y0))) as [B|B].
  { destruct (Z.leb_spec (Z.abs (y1 - y0)) (Z.abs (x1 - x0))); [lia|]. cbn [In].
    destruct (Z.ltb_spec y1 y0) as [B'|B'], (Z.leb_spec y0 y1) as [C|C]; try lia.
    - rewrite in_slope, nearest_kk by lia. split.
      + intros [E|(p & Hp & E)]; apply pair_eq in E.
        * split; [lia|]. destruct E as [-> ->]. rewrite kk_end by lia. unfold sgn. destruct (Z.ltb_spec x x1); lia.
        * split; [lia|]. destruct E as [E ->]. exact E.
      + intros [H' E]. destruct (Z.eq_dec y y0) as [->|N].
        * left. rewrite kk_end in E by lia. f_equal. rewrite E. unfold sgn. destruct (Z.ltb_spec x0 x1); lia.
        * right. exists y. split; [lia|]. f_equal. exact E.
    - rewrite in_slope, nearest_kk by lia. split.
      + intros [E|(p & Hp & E)]; apply pair_eq in E.
        * split; [lia|]. destruct E as [-> ->]. rewrite Z.sub_diag, kk_0 by lia. lia.
        * split; [lia|]. destruct E as [E ->]. exact E.
      + intros [H' E]. destruct (Z.eq_dec y y0) as [->|N].
        * left. rewrite Z.sub_diag, kk_0 in E by lia. f_equal. lia.
        * right. exists y. split; [lia|]. f_equal. exact E. }
  rewrite in_step. destruct (Z.leb_spec (Z.abs (y1 - y0)) (Z.abs (x1 - x0))) as [C|C]; [|lia].
  unfold sgn. destruct (Z.leb_spec x0 x1) as [L|L].
  - rewrite nearest_kk by lia. replace (Z.abs (y1 - y0)) with (x1 - x0) by lia. rewrite kk_diag by lia.
    unfold sgn. destruct (Z.ltb_spec x1 x0); [lia|]. destruct (Z.ltb_spec y1 y0); split.
    + intros (i & Hi & E). apply pair_eq in E. lia.
    + intros [H' E]. exists (x - x0). split; [lia|]. apply pair_eq. lia.
    + intros (i & Hi & E). apply pair_eq in E. lia.
    + intros [H' E]. exists (x - x0). split; [lia|]. apply pair_eq. lia.
  - rewrite nearest_kk by lia. replace (Z.abs (y0 - y1)) with (x0 - x1) by lia. rewrite kk_diag by lia.
    unfold sgn. destruct (Z.ltb_spec x1 x0); [|lia].
    destruct (Z.ltb_spec y1 y0), (Z.ltb_spec y0 y1); try lia; split.
    + intros (i & Hi & E). apply pair_eq in E. lia.
    + intros [H' E]. exists (x0 - x). split; [lia|]. apply pair_eq. lia.
    + intros (i & Hi & E). apply pair_eq in E. lia.
    + intros [H' E]. exists (x0 - x). split; [lia|]. apply pair_eq. lia.
Qed.

Lemma slope_length cellof p0 q0 p1 q1 : length (slope_cells cellof p0 q0 p1 q1) = pred (Z.to_nat (p1 - p0)).
Proof. unfold slope_cells. rewrite map_length. apply zrun_length. Qed.
Lemma step_length n x y xi yi : length (step_cells n x y xi yi) = n.
Proof. unfold step_cells. rewrite map_length. apply zrun_length. Qed.
Lemma ray_length x0 y0 x1 y1 : lenZ (ray_cells x0 y0 x1 y1) = Z.max (Z.abs (x1 - x0)) (Z.abs (y1 - y0)).
Proof.
  unfold ray_cells, lenZ.
  destruct (Z.eqb_spec (x1 - x0) 0); [rewrite step_length; lia|].
  destruct (Z.eqb_spec (y1 - y0) 0); [rewrite step_length; lia|].
  destruct (Z.ltb_spec (Z.abs (y1 - y0)) (Z.abs (x1 - x0))).
  { cbn [length]. destruct (Z.ltb_spec x1 x0); rewrite slope_length; lia. }
  destruct (Z.ltb_spec (Z.abs (x1 - x0)) (Z.abs (y1 - y0))).
  { cbn [length]. destruct (Z.ltb_spec y1 y0); rewrite slope_length; lia. }
  rewrite step_length. lia.
Qed.

Lemma map_nodup_on {A B} (f : A -> B) (l : list A) :
  (forall a b, In a l -> In b l -> f a = f b -> a = b) -> NoDup l -> NoDup (map f l).
Proof.
  induction l as [|a l IH]; intros Hf Hl; cbn; [constructor|]. inversion Hl; subst. constructor.
  - rewrite in_map_iff. intros (b & E & Hb). assert (b = a) by (apply Hf; cbn; auto). subst; contradiction.
  - apply IH; auto. intros; apply Hf; cbn; auto.
Qed.
Lemma slope_nodup_low p0 q0 p1 q1 : NoDup (slope_cells (fun p q => (p, q)) p0 q0 p1 q1).
Proof.
  apply map_nodup_on; [|apply zrun_nodup]. intros a b _ _ E. apply pair_eq in E. lia.
Qed.
Lemma slope_nodup_high p0 q0 p1 q1 : NoDup (slope_cells (fun p q => (q, p)) p0 q0 p1 q1).
Proof.
  apply map_nodup_on; [|apply zrun_nodup]. intros a b _ _ E. apply pair_eq in E. lia.
Qed.
Lemma step_nodup n x y xi yi : xi <> 0 \/ yi <> 0 -> NoDup (step_cells n x y xi yi).
Proof.
  intros H. apply map_nodup_on; [|apply zrun_nodup]. intros a b _ _ E. apply pair_eq in E. nia.
Qed.
Lemma sgn_nz a b : sgn a b <> 0.
Proof. unfold sgn; destruct (_ <? _); lia. Qed.
Lemma ray_nodup x0 y0 x1 y1 : NoDup (ray_cells x0 y0 x1 y1).
Proof.
  unfold ray_cells.
  destruct (Z.eqb_spec (x1 - x0) 0); [apply step_nodup; right; apply sgn_nz|].
  destruct (Z.eqb_spec (y1 - y0) 0); [apply step_nodup; left; apply sgn_nz|].
  destruct (Z.ltb_spec (Z.abs (y1 - y0)) (Z.abs (x1 - x0))).
  { destruct (Z.ltb_spec x1 x0); (constructor; [|apply slope_nodup_low]); rewrite in_slope;
      intros (p & Hp & E); apply pair_eq in E; lia. }
  destruct (Z.ltb_spec (Z.abs (x1 - x0)) (Z.abs (y1 - y0))).
  { destruct (Z.ltb_spec y1 y0); (constructor; [|apply slope_nodup_high]); rewrite in_slope;
      intros (p & Hp & E); apply pair_eq in E; lia. }
  apply step_nodup. left. apply sgn_nz.
Qed.

(** The ray stays in the box of its ends and never contains the end. *)
Lemma on_ray_box x0 y0 x1 y1 x y : on_ray x0 y0 x1 y1 x y ->
  Z.min x0 x1 <= x <= Z.max x0 x1 /\ Z.min y0 y1 <= y <= Z.max y0 y1 /\ (x, y) <> (x1, y1).
Proof.
  unfold on_ray. intros H.
  assert (KB : forall mm nn i, 0 < mm -> 0 <= nn -> 0 <= i <= mm -> 0 <= kk mm nn i <= nn).
  { intros mm nn i A B C. pose proof (kk_near mm nn i A). nia. }
  assert (N : (x, y) <> (x1, y1)).
  { intros E. apply pair_eq in E. destruct E as [-> ->]. destruct (_ <=? _); lia. }
  split; [|split; [|exact N]].
  - destruct (Z.leb_spec (Z.abs (y1 - y0)) (Z.abs (x1 - x0))); [lia|].
    destruct H as [H1 H2]. destruct (Z.leb_spec y0 y1).
    + rewrite nearest_kk in H2 by lia. pose proof (KB (y1 - y0) (Z.abs (x1 - x0)) (y - y0) ltac:(lia) ltac:(lia) ltac:(lia)).
      unfold sgn in H2. destruct (Z.ltb_spec x1 x0); lia.
    + rewrite nearest_kk in H2 by lia. pose proof (KB (y0 - y1) (Z.abs (x0 - x1)) (y - y1) ltac:(lia) ltac:(lia) ltac:(lia)).
      unfold sgn in H2. destruct (Z.ltb_spec x0 x1); lia.
  - destruct (Z.leb_spec (Z.abs (y1 - y0)) (Z.abs (x1 - x0))); [|lia].
    destruct H as [H1 H2]. destruct (Z.leb_spec x0 x1).
    + rewrite nearest_kk in H2 by lia. pose proof (KB (x1 - x0) (Z.abs (y1 - y0)) (x - x0) ltac:(lia) ltac:(lia) ltac:(lia)).
      unfold sgn in H2. destruct (Z.ltb_spec y1 y0); lia.
    + rewrite nearest_kk in H2 by lia. pose proof (KB (x0 - x1) (Z.abs (y0 - y1)) (x - x1) ltac:(lia) ltac:(lia) ltac:(lia)).
      unfold sgn in H2. destruct (Z.ltb_spec y0 y1); lia.
Qed.
End Ray.
