(** Proofs about the dynamic window. *)
From Coq Require Import Reals ZArith List Bool Lia Lra.
From Flocq Require Import Core.Core IEEE754.BinarySingleNaN.
From Verif Require Import Outcome Num Float64 FloatLemmas GridModel CollisionModel NumericsModel RobotModel DwaModel
  SpecMotion SpecRobot SpecDwa NumericsProofs MotionProofs RobotProofs.
Import ListNotations.

Section Any.
Context {T : Type} {NT : Num T}.

Lemma select_app (obj : vec3 T -> res T) l l' st :
  select obj (l ++ l') st = (let* s := select obj l st in select obj l' s).
Proof.
  revert st. induction l as [|u l IH]; intros st; cbn [app select bind]; [reflexivity|].
  destruct (obj u); cbn [bind]; [apply IH|reflexivity|reflexivity|reflexivity].
Qed.

Definition steps_of (d : T) (n : nat) (v : T) : list T := map (fun i => Nat.iter i (fun x => nadd x d) v) (seq 0 n).
Lemma iter_next {A} (f : A -> A) i x : Nat.iter (S i) f x = Nat.iter i f (f x).
Proof. induction i as [|i IH]; [reflexivity|]. cbn in *. rewrite IH. reflexivity. Qed.
Lemma steps_of_S d n v : steps_of d (S n) v = v :: steps_of d n (nadd v d).
Proof.
  unfold steps_of. cbn [seq map]. f_equal. rewrite <- seq_shift, map_map. apply map_ext. intros i.
  exact (iter_next (fun x => nadd x d) i v).
Qed.

Lemma loop_w_select obj n : forall vx vy w dw st,
  loop_w obj n vx vy w dw st = select obj (map (fun w => V3 vx vy w) (steps_of dw n w)) st.
Proof.
  induction n as [|n IH]; intros; [reflexivity|]. rewrite steps_of_S. cbn [map loop_w select].
  destruct (obj (V3 vx vy w)); cbn [bind]; auto.
Qed.
Lemma loop_vy_select obj n nth : forall vx vy w dv st,
  loop_vy obj n nth vx vy w dv st =
  select obj (flat_map (fun vy => map (fun w => V3 vx vy w) (steps_of (v2 dv) nth w)) (steps_of (v1 dv) n vy)) st.
Proof.
  induction n as [|n IH]; intros; [reflexivity|]. rewrite steps_of_S. cbn [flat_map loop_vy].
  rewrite select_app, loop_w_select. destruct (select _ _ st); cbn [bind]; auto.
Qed.
Definition twists (nx ny nth : nat) (lo dv : vec3 T) : list (vec3 T) :=
  flat_map (fun vx => flat_map (fun vy => map (fun w => V3 vx vy w) (steps_of (v2 dv) nth (v2 lo))) (steps_of (v1 dv) ny (v1 lo)))
    (steps_of (v0 dv) nx (v0 lo)).
Lemma loop_vx_select obj n ny nth : forall vx lo dv st,
  loop_vx obj n ny nth vx lo dv st =
  select obj (flat_map (fun vx => flat_map (fun vy => map (fun w => V3 vx vy w) (steps_of (v2 dv) nth (v2 lo))) (steps_of (v1 dv) ny (v1 lo)))
    (steps_of (v0 dv) n vx)) st.
Proof.
  induction n as [|n IH]; intros; [reflexivity|]. rewrite steps_of_S. cbn [flat_map loop_vx].
  rewrite select_app, loop_vy_select. destruct (select _ _ st); cbn [bind]; auto.
Qed.

Lemma in_steps d n v x : In x (steps_of d n v) <-> exists i, (i < n)%nat /\ x = Nat.iter i (fun y => nadd y d) v.
Proof.
  unfold steps_of. rewrite in_map_iff. split.
  - intros (i & <- & Hi). apply in_seq in Hi. exists i. split; [lia|reflexivity].
  - intros (i & Hi & ->). exists i. split; [reflexivity|]. apply in_seq. lia.
Qed.
Lemma steps_len d n v : length (steps_of d n v) = n.
Proof. unfold steps_of. rewrite map_length, seq_length. reflexivity. Qed.
Lemma flat_len {A B} (f : A -> list B) k l : (forall a, length (f a) = k) -> length (flat_map f l) = (length l * k)%nat.
Proof. intros H. induction l as [|a l IH]; [reflexivity|]. cbn. rewrite app_length, H, IH. reflexivity. Qed.
Lemma twists_len nx ny nth lo dv : length (twists nx ny nth lo dv) = (nx * (ny * nth))%nat.
Proof.
  unfold twists. rewrite (flat_len _ (ny * nth)), steps_len; [reflexivity|]. intros a.
  rewrite (flat_len _ nth), steps_len; [reflexivity|]. intros b. rewrite map_length. apply steps_len.
Qed.

Definition grid_of (d : dwa T) (vb : vec3 T) : list (vec3 T) :=
  let '(lo, dv) := dwa_window d vb in twists (Z.to_nat (dw_nx d)) (Z.to_nat (dw_ny d)) (Z.to_nat (dw_nth d)) lo dv.
Lemma axis_iff (dt v acc vmin vmax : T) n x :
  on_axis dt v acc vmin vmax n x <->
  In x (steps_of (if (1 <? n)%Z then ndiv (nsub (fmin (nadd v (nmul acc dt)) vmax) (fmax (nsub v (nmul acc dt)) vmin)) (nofZ (n - 1)) else n0)
          (Z.to_nat n) (fmax (nsub v (nmul acc dt)) vmin)).
Proof.
  rewrite in_steps. unfold on_axis, sample, spacing, low, high. split; intros (i & Hi & ->); exists i; (split; [lia|]); reflexivity.
Qed.
Lemma grid_of_sampled d vb u : In u (grid_of d vb) <-> sampled d vb u.
Proof.
  unfold grid_of, sampled. rewrite !axis_iff. unfold dwa_window, twists. cbn [v0 v1 v2]. rewrite in_flat_map. split.
  - intros (x & Hx & H). apply in_flat_map in H. destruct H as (y & Hy & H). apply in_map_iff in H.
    destruct H as (w & <- & Hw). cbn [v0 v1 v2]. auto.
  - intros (Hx & Hy & Hw). exists (v0 u). split; [exact Hx|]. apply in_flat_map. exists (v1 u). split; [exact Hy|].
    apply in_map_iff. exists (v2 u). split; [destruct u; reflexivity|exact Hw].
Qed.
Lemma search_select d obj vb : dwa_search d obj vb =
  (let* ' (m, u) := select obj (grid_of d vb) (nmax, V3 n0 n0 n0) in
   if almost_equal m nmax then Ok (false, u) else Ok (true, u)).
Proof.
  unfold dwa_search, grid_of. destruct (dwa_window d vb) as [lo dv]. rewrite loop_vx_select. reflexivity.
Qed.

(** ** The search *)
Section Order.
Hypothesis lt_trans : forall a b c : T, nlt a b = true -> nlt b c = true -> nlt a c = true.
Hypothesis lt_irrefl : forall a : T, nlt a a = false.
Lemma lt_asym a b : nlt a b = true -> nlt b a = false.
Proof.
  intros H. destruct (nlt b a) eqn:E; [|reflexivity]. rewrite <- (lt_irrefl a). symmetry. exact (lt_trans _ _ _ H E).
Qed.
Lemma select_spec obj l : forall m0 u0 m u, select obj l (m0, u0) = Ok (m, u) ->
  (forall v, In v l -> exists c, obj v = Ok c /\ nlt c m = false) /\
  ((m = m0 /\ u = u0) \/ (In u l /\ obj u = Ok m /\ nlt m m0 = true)).
Proof.
  induction l as [|a l IH]; intros m0 u0 m u H.
  - injection H as -> ->. split; [intros v []|left; split; reflexivity].
  - cbn [select] in H. destruct (obj a) as [c| | |] eqn:E; try discriminate. cbn [bind fst] in H.
    destruct (nlt c m0) eqn:L.
    + destruct (IH _ _ _ _ H) as (A & B). split.
      * intros v [<-|Hv]; [|auto]. exists c. split; [exact E|].
        destruct B as [(-> & _)|(_ & _ & B)]; [apply lt_irrefl|apply lt_asym; exact B].
      * right. destruct B as [(-> & ->)|(I & O & B)]; [split; [left; reflexivity|auto]|].
        split; [right; exact I|]. split; [exact O|]. exact (lt_trans _ _ _ B L).
    + destruct (IH _ _ _ _ H) as (A & B). split.
      * intros v [<-|Hv]; [|auto]. exists c. split; [exact E|].
        destruct B as [(-> & _)|(_ & _ & B)]; [exact L|].
        destruct (nlt c m) eqn:Q; [|reflexivity]. rewrite (lt_trans _ _ _ Q B) in L. discriminate.
      * destruct B as [B|(I & O & B)]; [left; exact B|right; split; [right; exact I|auto]].
Qed.
Hypothesis max_max : almost_equal (nmax : T) nmax = true.
Lemma search_true d obj vb u : dwa_search d obj vb = Ok (true, u) ->
  sampled d vb u /\ exists m, obj u = Ok m /\ nlt m nmax = true /\
    forall v, sampled d vb v -> exists c, obj v = Ok c /\ nlt c m = false.
Proof.
  rewrite search_select. destruct (select _ _ _) as [[m w]| | |] eqn:E; cbn [bind]; try discriminate.
  destruct (almost_equal m nmax) eqn:Q; [discriminate|]. intros H. injection H as <-.
  destruct (select_spec _ _ _ _ _ _ E) as (A & [(-> & _)|(I & O & B)]); [rewrite max_max in Q; discriminate|].
  split; [apply grid_of_sampled; exact I|]. exists m. split; [exact O|]. split; [exact B|].
  intros v Hv. apply A. apply grid_of_sampled. exact Hv.
Qed.
Lemma search_false d obj vb u : dwa_search d obj vb = Ok (false, u) ->
  exists m, almost_equal m nmax = true /\ (forall v, sampled d vb v -> exists c, obj v = Ok c /\ nlt c m = false) /\
    ((m = nmax /\ u = V3 n0 n0 n0) \/ (sampled d vb u /\ obj u = Ok m /\ nlt m nmax = true)).
Proof.
  rewrite search_select. destruct (select _ _ _) as [[m w]| | |] eqn:E; cbn [bind]; try discriminate.
  destruct (almost_equal m nmax) eqn:Q; [|discriminate]. intros H. injection H as <-.
  destruct (select_spec _ _ _ _ _ _ E) as (A & B). exists m. split; [exact Q|]. split.
  - intros v Hv. apply A. apply grid_of_sampled. exact Hv.
  - destruct B as [B|(I & O & B)]; [left; exact B|right]. split; [apply grid_of_sampled; exact I|auto].
Qed.

(** ** The two objectives *)
Local Opaque collisionCheck integrate_twist normalize_angle_PI.
Lemma validate_rollout c g u dt n : forall x,
  (validate_loop n c g x u dt = Ok true <-> Forall (clear c g) (rollout n dt u x)) /\
  (validate_loop n c g x u dt = Ok false -> Exists (crash c g) (rollout n dt u x)).
Proof.
  induction n as [|n IH]; intros x; cbn [validate_loop rollout]; cbv zeta.
  - split; [split; [constructor|reflexivity]|discriminate].
  - set (y := V3 _ _ _). destruct (collisionCheck c g (v0 y) (v1 y)) as [[|]| | |] eqn:E; cbn [bind].
    + split; [split; [discriminate|]|intros _; left; exact E]. intros H. inversion H; subst. unfold clear in *. congruence.
    + destruct (IH y) as (A & B). split; [|intros H; right; auto]. rewrite A. split; [intros H; constructor; auto|].
      intros H. inversion H; auto.
    + split; [split; [discriminate|]|discriminate]. intros H. inversion H; subst. unfold clear in *. congruence.
    + split; [split; [discriminate|]|discriminate]. intros H. inversion H; subst. unfold clear in *. congruence.
    + split; [split; [discriminate|]|discriminate]. intros H. inversion H; subst. unfold clear in *. congruence.
Qed.
Lemma vref_cases d g x0 vref u c : objective_vref d g x0 vref u = Ok c ->
  (safe d g x0 u /\ c = err vref u) \/ (collides d g x0 u /\ c = nmax).
Proof.
  unfold objective_vref. destruct (validate_rollout (dw_collision d) g u (dw_dt d) (Z.to_nat (dw_steps d)) x0) as (A & B).
  destruct (validate_loop _ _ _ _ _ _) as [[|]| | |]; cbn [bind negb]; intros H; try discriminate; injection H as <-.
  - left. split; [apply A; reflexivity|reflexivity].
  - right. split; [apply B; reflexivity|reflexivity].
Qed.
Lemma safe_collides d g x0 u : safe d g x0 u -> collides d g x0 u -> False.
Proof.
  unfold safe, collides. intros A B. apply Exists_exists in B. destruct B as (p & I & B).
  rewrite Forall_forall in A. specialize (A p I). unfold clear, crash in *. congruence.
Qed.
Lemma control_true d g x0 vb vref u : dwa_control d g x0 vb vref = Ok (true, u) ->
  sampled d vb u /\ safe d g x0 u /\ nlt (err vref u) nmax = true /\
  forall v, sampled d vb v -> safe d g x0 v -> nlt (err vref v) (err vref u) = false.
Proof.
  intros H. apply search_true in H. destruct H as (S & m & O & B & A).
  apply vref_cases in O. destruct O as [(F & ->)|(_ & ->)]; [|rewrite lt_irrefl in B; discriminate].
  split; [exact S|]. split; [exact F|]. split; [exact B|]. intros v Sv Fv. destruct (A v Sv) as (c & O & L).
  apply vref_cases in O. destruct O as [(_ & ->)|(C & _)]; [exact L|]. destruct (safe_collides _ _ _ _ Fv C).
Qed.

Lemma at_time_S dt k t : Nat.iter (S k) (fun t : T => nadd t dt) t = Nat.iter k (fun t => nadd t dt) (nadd t dt).
Proof. exact (iter_next _ _ _). Qed.
Definition column (ref : list (vec3 T)) (tf t : T) (r : vec3 T) : Prop :=
  exists j, (0 <= j < two32)%Z /\ ntrunc (nround (ndiv (nmul (nofZ ((lenZ ref - 1) mod two64)) t) tf)) = Some j /\ nth_error ref (Z.to_nat j) = Some r.
Lemma col_at_nth {A} (l : list A) j r : (0 <= j)%Z -> col_at l j = Ok r -> nth_error l (Z.to_nat j) = Some r.
Proof.
  intros Hj. unfold col_at, nthZ. destruct (Z.ltb_spec j 0) as [?|_]; [lia|].
  destruct (nth_error l (Z.to_nat j)); [congruence|discriminate].
Qed.
Lemma index_ok ref t tf j r : ref_index ref t tf = Ok j -> col_at ref j = Ok r -> column ref tf t r.
Proof.
  unfold ref_index, to_u32, column. destruct (ntrunc _) as [z|]; [|discriminate].
  destruct (_ && _) eqn:E; [|discriminate]. intros H. injection H as <-. apply andb_prop in E. destruct E as (E1 & E2).
  apply Z.leb_le in E1. apply Z.ltb_lt in E2. intros H. exists z. split; [lia|]. split; [reflexivity|].
  apply col_at_nth; assumption.
Qed.
Lemma loop_follow d g u ref tf n : forall x t s c, objective_loop n d g u ref tf x t s = Ok c ->
  (Forall (clear (dw_collision d) g) (rollout n (dw_dt d) u x) /\
   exists cols, length cols = n /\
     (forall k r, nth_error cols k = Some r -> column ref tf (Nat.iter k (fun t => nadd t (dw_dt d)) t) r) /\
     c = fold_left (fun s pr => nadd (nadd s (nsqrt (nadd (nmul (nsub (v0 (snd pr)) (v0 (fst pr))) (nsub (v0 (snd pr)) (v0 (fst pr))))
             (nmul (nsub (v1 (snd pr)) (v1 (fst pr))) (nsub (v1 (snd pr)) (v1 (fst pr)))))))
           (nabs (normalize_angle_PI (nsub (normalize_angle_PI (v2 (snd pr))) (v2 (fst pr)))))) (combine (rollout n (dw_dt d) u x) cols) s) \/
  (Exists (crash (dw_collision d) g) (rollout n (dw_dt d) u x) /\ c = nmax).
Proof.
  induction n as [|n IH]; intros x t s c H; cbn [objective_loop rollout] in *; cbv zeta in *.
  - injection H as <-. left. split; [constructor|]. exists []. split; [reflexivity|]. split; [intros k r E; destruct k; discriminate|reflexivity].
  - set (y := V3 _ _ _) in *. destruct (collisionCheck (dw_collision d) g (v0 y) (v1 y)) as [[|]| | |] eqn:E; cbn [bind] in H; try discriminate.
    + injection H as <-. right. split; [left; exact E|reflexivity].
    + destruct (ref_index ref t tf) as [j| | |] eqn:J; cbn [bind] in H; try discriminate.
      destruct (col_at ref j) as [r| | |] eqn:C; cbn [bind] in H; try discriminate.
      apply IH in H. destruct H as [(F & cols & L & K & ->)|(F & ->)].
      * left. split; [constructor; [exact E|exact F]|]. exists (r :: cols). split; [cbn; f_equal; exact L|]. split.
        -- intros [|k] q Hq.
           ++ cbn [nth_error] in Hq. injection Hq as <-. exact (index_ok _ _ _ _ _ J C).
           ++ rewrite at_time_S. apply K. exact Hq.
        -- reflexivity.
      * right. split; [right; exact F|reflexivity].
Qed.
Lemma traj_cases d g x0 u ref tf c : objective_traj d g x0 u ref tf = Ok c ->
  (safe d g x0 u /\ follow_cost d x0 u ref tf c) \/ (collides d g x0 u /\ c = nmax).
Proof. intros H. apply loop_follow in H. destruct H as [(A & B)|H]; [left; split; [exact A|exact B]|right; exact H]. Qed.
Lemma column_unique ref tf t r r' : column ref tf t r -> column ref tf t r' -> r = r'.
Proof using NT. clear lt_trans lt_irrefl max_max. intros (j & _ & A & B) (j' & _ & A' & B'). congruence. Qed.
Lemma list_ext {A} (l l' : list A) : (forall k, nth_error l k = nth_error l' k) -> l = l'.
Proof using. clear lt_trans lt_irrefl max_max.
  revert l'. induction l as [|a l IH]; intros [|a' l'] H; [reflexivity|specialize (H 0%nat); discriminate|specialize (H 0%nat); discriminate|].
  f_equal; [specialize (H 0%nat); cbn in H; congruence|]. apply IH. intros k. exact (H (S k)).
Qed.
Lemma follow_cost_unique d x0 u ref tf c c' : follow_cost d x0 u ref tf c -> follow_cost d x0 u ref tf c' -> c = c'.
Proof using NT. clear lt_trans lt_irrefl max_max.
  intros (l & L & A & ->) (l' & L' & A' & ->). replace l' with l; [reflexivity|]. apply list_ext. intros k.
  destruct (nth_error l k) as [r|] eqn:E; destruct (nth_error l' k) as [r'|] eqn:E'; try reflexivity.
  - f_equal. exact (column_unique _ _ _ _ _ (A _ _ E) (A' _ _ E')).
  - apply nth_error_None in E'. assert (k < length l)%nat by (apply nth_error_Some; congruence). lia.
  - apply nth_error_None in E. assert (k < length l')%nat by (apply nth_error_Some; congruence). lia.
Qed.
Lemma follow_true d g x0 vb ref dtr u : dwa_follow d g x0 vb ref dtr = Ok (true, u) ->
  sampled d vb u /\ safe d g x0 u /\ exists c, follow_cost d x0 u ref (nmul (nofZ (lenZ ref)) dtr) c /\ nlt c nmax = true /\
  forall v, sampled d vb v -> safe d g x0 v -> exists c', follow_cost d x0 v ref (nmul (nofZ (lenZ ref)) dtr) c' /\ nlt c' c = false.
Proof.
  unfold dwa_follow. cbv zeta. intros H. apply search_true in H. destruct H as (S & m & O & B & A).
  apply traj_cases in O. destruct O as [(F & C)|(_ & ->)]; [|rewrite lt_irrefl in B; discriminate].
  split; [exact S|]. split; [exact F|]. exists m. split; [exact C|]. split; [exact B|]. intros v Sv Fv. destruct (A v Sv) as (c & O & L).
  apply traj_cases in O. destruct O as [(_ & Cv)|(Cv & _)]; [exists c; split; assumption|]. destruct (safe_collides _ _ _ _ Fv Cv).
Qed.

(** Failure, when nothing below the maximum is almost equal to it. *)
Hypothesis max_gap : forall m : T, nlt m nmax = true -> almost_equal m nmax = false.
Lemma control_false d g x0 vb vref u : dwa_control d g x0 vb vref = Ok (false, u) ->
  u = V3 n0 n0 n0 /\ forall v, sampled d vb v -> collides d g x0 v \/ (safe d g x0 v /\ nlt (err vref v) nmax = false).
Proof.
  intros H. apply search_false in H. destruct H as (m & Q & A & [(-> & ->)|(_ & _ & B)]); [|rewrite (max_gap _ B) in Q; discriminate].
  split; [reflexivity|]. intros v Sv. destruct (A v Sv) as (c & O & L). apply vref_cases in O.
  destruct O as [(F & ->)|(F & _)]; [right; split; assumption|left; exact F].
Qed.
Lemma follow_false d g x0 vb ref dtr u : dwa_follow d g x0 vb ref dtr = Ok (false, u) ->
  u = V3 n0 n0 n0 /\ forall v, sampled d vb v -> collides d g x0 v \/
    (safe d g x0 v /\ exists c, follow_cost d x0 v ref (nmul (nofZ (lenZ ref)) dtr) c /\ nlt c nmax = false).
Proof.
  unfold dwa_follow. cbv zeta. intros H. apply search_false in H.
  destruct H as (m & Q & A & [(-> & ->)|(_ & _ & B)]); [|rewrite (max_gap _ B) in Q; discriminate].
  split; [reflexivity|]. intros v Sv. destruct (A v Sv) as (c & O & L). apply traj_cases in O.
  destruct O as [(F & C)|(F & _)]; [right; split; [assumption|exists c; split; assumption]|left; exact F].
Qed.
End Order.
End Any.

(** ** At the reals and in binary64 *)
Local Open Scope R_scope.
Notation fexp64 := (SpecFloat.fexp 53 1024).
Lemma max_R : B2R b64_max = IZR 9007199254740991 * bpow radix2 971.
Proof. reflexivity. Qed.
Lemma below_max (m : b64) : is_finite m = true -> B2R m < B2R b64_max -> B2R m <= B2R b64_max - bpow radix2 971.
Proof.
  intros F H.
  assert (VE : Valid_exp fexp64) by (apply fexp_correct; reflexivity).
  assert (P : B2R m <= pred radix2 fexp64 (B2R b64_max)).
  { apply pred_ge_gt; [exact VE|apply generic_format_B2R|apply generic_format_B2R|exact H]. }
  assert (M : bpow radix2 1024 - bpow radix2 971 = B2R b64_max).
  { rewrite max_R. change 1024%Z with (53 + 971)%Z. rewrite bpow_plus. change (bpow radix2 53) with (IZR 9007199254740992). lra. }
  assert (B : 0 < bpow radix2 971) by apply bpow_gt_0.
  assert (C : bpow radix2 1023 < B2R b64_max).
  { rewrite max_R. change 1023%Z with (52 + 971)%Z. rewrite bpow_plus. change (bpow radix2 52) with (IZR 4503599627370496).
    apply Rmult_lt_compat_r; [exact B|]. lra. }
  assert (MG : mag radix2 (B2R b64_max) = 1024%Z :> Z).
  { apply mag_unique_pos. change (1024 - 1)%Z with 1023%Z. lra. }
  rewrite pred_eq_pos in P by (pose proof (bpow_gt_0 radix2 1023); lra).
  unfold pred_pos in P. rewrite MG in P. change (1024 - 1)%Z with 1023%Z in P. rewrite Req_bool_false in P by lra.
  rewrite ulp_neq_0 in P by (pose proof (bpow_gt_0 radix2 1023); lra). unfold cexp in P. rewrite MG in P.
  change (fexp64 1024) with 971%Z in P. exact P.
Qed.
Lemma max_gap64 (L : libm) (m : b64) : Bltb m b64_max = true -> @almost_equal b64 (F64 L) m b64_max = false.
Proof.
  intros H. unfold almost_equal. rewrite eps64_lit. cbn [nlt nabs nsub F64].
  assert (E1 : is_finite eps64 = true) by (vm_compute; reflexivity).
  assert (E2 : Bleb eps64 (b64_ofZ 1) = true) by (vm_compute; reflexivity).
  destruct (is_finite m) eqn:F.
  2:{ destruct m as [s|[]| |s mm e p]; try discriminate F; try discriminate H. vm_compute. reflexivity. }
  rewrite Bltb_R in H by (exact F || reflexivity).
  destruct (Rlt_bool_spec (B2R m) (B2R b64_max)) as [K|K]; [|discriminate]. clear H.
  pose proof (below_max m F K) as P.
  destruct (ofZ_exact 1 ltac:(lia)) as (O1 & O2).
  rewrite Bleb_R in E2 by assumption. rewrite O1 in E2.
  destruct (Rle_bool_spec (B2R eps64) 1) as [Q|Q]; [|discriminate]. clear E2.
  pose proof (Bminus_correct 53 1024 _ _ mode_NE m b64_max F eq_refl) as C.
  destruct (Rlt_bool _ _) eqn:Z.
  - destruct C as (C & FF & _). rewrite Bltb_R by (try rewrite is_finite_Babs; assumption).
    apply Rlt_bool_false. rewrite B2R_Babs, C. apply Rle_trans with 1; [exact Q|].
    assert (VE : Valid_exp fexp64) by (apply fexp_correct; reflexivity).
    change (round_mode mode_NE) with ZnearestE.
    apply abs_round_ge_generic; [exact VE|apply valid_rnd_N| |].
    + change 1 with (bpow radix2 0). apply generic_format_bpow. vm_compute. discriminate.
    + rewrite Rabs_left1; [|pose proof (bpow_gt_0 radix2 971); lra].
      assert (1 <= bpow radix2 971) by (change 1 with (bpow radix2 0); apply bpow_le; lia). lra.
  - destruct C as (C & _). destruct (Bminus mode_NE m b64_max) as [s|s| |s mm e p]; try discriminate C.
    destruct s; vm_compute; reflexivity.
Qed.
Lemma max_max64 (L : libm) : @almost_equal b64 (F64 L) b64_max b64_max = true.
Proof. vm_compute. reflexivity. Qed.
Lemma Rlt_t (a b c : R) : Rltb a b = true -> Rltb b c = true -> Rltb a c = true.
Proof. rewrite !Rltb_true. lra. Qed.
Lemma Rlt_i (a : R) : Rltb a a = false.
Proof. apply Rltb_false. lra. Qed.
Lemma max_maxR : @almost_equal R RNum nmax nmax = true.
Proof. apply almost_equal_R. rewrite Rminus_diag_eq by reflexivity. rewrite Rabs_R0. lra. Qed.

Lemma c50_success (d : dwa R) g x0 vb vref u : dwa_control d g x0 vb vref = Ok (true, u) ->
  sampled d vb u /\ safe d g x0 u /\
  forall v, sampled d vb v -> safe d g x0 v -> err vref u <= err vref v.
Proof.
  intros H. destruct (@control_true R RNum Rlt_t Rlt_i max_maxR _ _ _ _ _ _ H) as (A & B & _ & D).
  split; [exact A|]. split; [exact B|]. intros v Sv Fv. apply Rltb_false. exact (D v Sv Fv).
Qed.
Lemma c50_success64 (L : libm) (d : dwa b64) g x0 vb vref u : @dwa_control b64 (F64 L) d g x0 vb vref = Ok (true, u) ->
  @sampled b64 (F64 L) d vb u /\ @safe b64 (F64 L) d g x0 u /\
  forall v, @sampled b64 (F64 L) d vb v -> @safe b64 (F64 L) d g x0 v -> Bltb (@err b64 (F64 L) vref v) (@err b64 (F64 L) vref u) = false.
Proof.
  intros H. destruct (@control_true b64 (F64 L) Bltb_trans Bltb_irrefl (max_max64 L) _ _ _ _ _ _ H) as (A & B & _ & D). auto.
Qed.
Lemma c50_failure64 (L : libm) (d : dwa b64) g x0 vb vref u : @dwa_control b64 (F64 L) d g x0 vb vref = Ok (false, u) ->
  u = V3 (b64_ofZ 0) (b64_ofZ 0) (b64_ofZ 0) /\
  forall v, @sampled b64 (F64 L) d vb v ->
    @collides b64 (F64 L) d g x0 v \/ (@safe b64 (F64 L) d g x0 v /\ Bltb (@err b64 (F64 L) vref v) b64_max = false).
Proof. exact (@control_false b64 (F64 L) Bltb_trans Bltb_irrefl (max_gap64 L) d g x0 vb vref u). Qed.
Lemma c50_failure (d : dwa R) g x0 vb vref u : dwa_control d g x0 vb vref = Ok (false, u) ->
  forall v, sampled d vb v -> collides d g x0 v \/ (safe d g x0 v /\ IZR (2 ^ 1024 - 2 ^ 971) - 1 / 1000000000000 < err vref v).
Proof.
  intros H. destruct (@search_false R RNum Rlt_t Rlt_i _ _ _ _ H) as (m & Q & A & _). intros v Sv.
  destruct (A v Sv) as (c & O & L). apply vref_cases in O. destruct O as [(F & ->)|(F & _)]; [right; split; [exact F|]|left; exact F].
  apply almost_equal_R in Q. apply Rltb_false in L. apply Rabs_def2 in Q. set (e := err vref v) in *. cbn [nmax RNum] in Q. lra.
Qed.
Lemma c50_follow (d : dwa R) g x0 vb ref dtr u : dwa_follow d g x0 vb ref dtr = Ok (true, u) ->
  sampled d vb u /\ safe d g x0 u /\ exists c, follow_cost d x0 u ref (IZR (lenZ ref) * dtr) c /\
  forall v, sampled d vb v -> safe d g x0 v -> exists c', follow_cost d x0 v ref (IZR (lenZ ref) * dtr) c' /\ c <= c'.
Proof.
  intros H. destruct (@follow_true R RNum Rlt_t Rlt_i max_maxR _ _ _ _ _ _ _ H) as (A & B & c & C & _ & D).
  split; [exact A|]. split; [exact B|]. exists c. split; [exact C|]. intros v Sv Fv.
  destruct (D v Sv Fv) as (c' & C' & L). exists c'. split; [exact C'|]. apply Rltb_false. exact L.
Qed.
Lemma c50_follow64 (L : libm) (d : dwa b64) g x0 vb ref dtr u : @dwa_follow b64 (F64 L) d g x0 vb ref dtr = Ok (true, u) ->
  @sampled b64 (F64 L) d vb u /\ @safe b64 (F64 L) d g x0 u /\
  exists c, @follow_cost b64 (F64 L) d x0 u ref (Bmult mode_NE (b64_ofZ (lenZ ref)) dtr) c /\
  forall v, @sampled b64 (F64 L) d vb v -> @safe b64 (F64 L) d g x0 v ->
    exists c', @follow_cost b64 (F64 L) d x0 v ref (Bmult mode_NE (b64_ofZ (lenZ ref)) dtr) c' /\ Bltb c' c = false.
Proof.
  intros H. destruct (@follow_true b64 (F64 L) Bltb_trans Bltb_irrefl (max_max64 L) _ _ _ _ _ _ _ H) as (A & B & c & C & _ & D).
  split; [exact A|]. split; [exact B|]. exists c. split; [exact C|exact D].
Qed.
Lemma c50_follow_failure64 (L : libm) (d : dwa b64) g x0 vb ref dtr u : @dwa_follow b64 (F64 L) d g x0 vb ref dtr = Ok (false, u) ->
  u = V3 (b64_ofZ 0) (b64_ofZ 0) (b64_ofZ 0) /\
  forall v, @sampled b64 (F64 L) d vb v -> @collides b64 (F64 L) d g x0 v \/
    (@safe b64 (F64 L) d g x0 v /\ exists c, @follow_cost b64 (F64 L) d x0 v ref (Bmult mode_NE (b64_ofZ (lenZ ref)) dtr) c /\ Bltb c b64_max = false).
Proof. exact (@follow_false b64 (F64 L) Bltb_trans Bltb_irrefl (max_gap64 L) d g x0 vb ref dtr u). Qed.

(** ** The deviation over the reals *)
Lemma time_R dt k : at_time dt k = INR k * dt.
Proof.
  unfold at_time. induction k as [|k IH]; [cbn; lra|]. rewrite S_INR. cbn [Nat.iter nat_rect].
  unfold Nat.iter in IH. cbn [nadd RNum] in *. rewrite IH. lra.
Qed.
Lemma rollout_flow dt u : dt <> 0 -> forall n x k, (k < n)%nat -> exists m,
  nth_error (rollout n dt u x) k = Some (shift (flow x (v0 u) (v1 u) (rate (v2 u)) (INR (S k) * dt)) m).
Proof.
  intros Hd. induction n as [|n IH]; intros x k Hk; [lia|]. cbn [rollout]. cbv zeta.
  destruct (wrapped_step x u dt Hd) as [m Hm]. cbv zeta in Hm. rewrite Hm. destruct k as [|k].
  - exists m. cbn [nth_error]. do 3 f_equal. cbn. lra.
  - cbn [nth_error]. destruct (IH (shift (flow x (v0 u) (v1 u) (rate (v2 u)) dt) m) k ltac:(lia)) as [m' E]. rewrite E.
    rewrite flow_shift, shift_shift, flow_add. exists (m + m')%Z. do 3 f_equal. rewrite !S_INR. lra.
Qed.
Lemma rollout_len {T} {NT : Num T} n dt (u x : vec3 T) : length (rollout n dt u x) = n.
Proof. revert x. induction n as [|n IH]; intros x; [reflexivity|]. cbn [rollout length]. f_equal. apply IH. Qed.
Lemma wrapped_between a b : angle_between a b (Rabs (normalize_angle_PI (normalize_angle_PI a - b))).
Proof.
  destruct (c20_wrap (normalize_angle_PI a - b)) as (W & S). set (w := normalize_angle_PI (_ - b)) in *.
  destruct (c20_wrap a) as (_ & Sa). split.
  - split; [apply Rabs_pos|]. apply Rabs_le. lra.
  - assert (E : same_angle (a - b) w).
    { apply same_angle_sym. destruct S as [k S], Sa as [m Sa]. exists (k + m)%Z. rewrite plus_IZR. lra. }
    unfold Rabs. destruct (Rcase_abs w); [right; rewrite Ropp_involutive; exact E|left; exact E].
Qed.
Lemma between_shift a b k r : angle_between a (b + 2 * IZR k * PI) r -> angle_between a b r.
Proof.
  intros (A & [[m B]|[m B]]); (split; [exact A|]); [left|right]; exists (m + k)%Z; rewrite plus_IZR; lra.
Qed.
Lemma between_unique a b r r' : angle_between a b r -> angle_between a b r' -> r = r'.
Proof.
  pose proof PI_RGT_0 as PP.
  assert (K : forall r r', 0 <= r <= PI -> 0 <= r' <= PI -> same_angle r r' -> r = r').
  { intros s s' H H' [k E]. assert (IZR k < 1 /\ -1 < IZR k) as (K1 & K2) by (split; nra).
    apply lt_IZR in K1. apply lt_IZR in K2. assert (k = 0)%Z by lia. subst k. lra. }
  assert (K' : forall r r', 0 <= r <= PI -> 0 <= r' <= PI -> same_angle r (- r') -> r = r').
  { intros s s' H H' [k E].
    assert (IZR k < 2 /\ -1 < IZR k) as (K1 & K2) by (split; nra).
    apply lt_IZR in K1. apply lt_IZR in K2. assert (k = 0 \/ k = 1)%Z as [-> | ->] by lia; lra. }
  intros (A & B) (A' & B').
  assert (N : forall a b, same_angle a b -> same_angle (- a) (- b)).
  { intros p q [k ->]. exists (- k)%Z. rewrite opp_IZR. lra. }
  destruct B as [B|B], B' as [B'|B'].
  - apply K; auto. exact (same_angle_trans _ _ _ (same_angle_sym _ _ B) B').
  - apply K'; auto. exact (same_angle_trans _ _ _ (same_angle_sym _ _ B) B').
  - symmetry. apply K'; auto. exact (same_angle_trans _ _ _ (same_angle_sym _ _ B') B).
  - apply K; auto. apply N in B. apply N in B'. rewrite Ropp_involutive in B, B'.
    exact (same_angle_trans _ _ _ (same_angle_sym _ _ B) B').
Qed.
Lemma fold_total {A} (f : A -> R) l : forall s, fold_left (fun s a => s + f a) l s = s + total (map f l).
Proof. induction l as [|a l IH]; intros s; cbn; [lra|]. rewrite IH. lra. Qed.
Lemma deviation_total l : deviation l =
  total (map (fun pr => gap (snd pr) (fst pr) + Rabs (normalize_angle_PI (normalize_angle_PI (v2 (snd pr)) - v2 (fst pr)))) l).
Proof.
  unfold deviation. rewrite <- (Rplus_0_l (total _)), <- fold_total. unfold n0. cbn [nofZ RNum].
  generalize 0. induction l as [|a l IH]; intros s; [reflexivity|]. cbn [fold_left]. rewrite <- IH. f_equal.
  cbn [nadd nsub nmul nsqrt nabs RNum]. unfold gap. rewrite <- Rplus_assoc. do 3 f_equal. ring.
Qed.
Lemma total_seq {A} (f : A -> R) (g : nat -> R) l : forall s,
  (forall k a, nth_error l k = Some a -> f a = g (s + k)%nat) -> total (map f l) = total (map g (seq s (length l))).
Proof.
  induction l as [|a l IH]; intros s H; [reflexivity|]. cbn. rewrite (H 0%nat a eq_refl), Nat.add_0_r. f_equal.
  apply (IH (S s)). intros k b E. rewrite (H (S k) b E). f_equal. lia.
Qed.
Lemma nth_combine {A B} (l : list A) (l' : list B) k p : nth_error (combine l l') k = Some p ->
  nth_error l k = Some (fst p) /\ nth_error l' k = Some (snd p).
Proof.
  revert l' k. induction l as [|a l IH]; intros [|b l'] [|k] H; try discriminate.
  - cbn in *. injection H as <-. split; reflexivity.
  - exact (IH l' k H).
Qed.
Lemma ref_size (ref : list (vec3 R)) : (0 < lenZ ref <= two64)%Z -> ((lenZ ref - 1) mod two64 = lenZ ref - 1)%Z.
Proof. intros H. apply Z.mod_small. lia. Qed.
Lemma c50_cost (d : dwa R) x0 u ref tf c gamma : dw_dt d <> 0 -> follows x0 u gamma -> (0 < lenZ ref <= two64)%Z ->
  follow_cost d x0 u ref tf c ->
  exists (col : nat -> vec3 R) (ang : nat -> R),
    (forall k, (Z.of_nat k < dw_steps d)%Z ->
       nth_error ref (Z.to_nat (ZnearestA ((IZR (lenZ ref) - 1) * (INR k * dw_dt d) / tf))) = Some (col k) /\
       angle_between (v2 (col k)) (v2 (gamma (INR (S k) * dw_dt d))) (ang k)) /\
    c = total (map (fun k => gap (col k) (gamma (INR (S k) * dw_dt d)) + ang k) (seq 0 (Z.to_nat (dw_steps d)))).
Proof.
  intros Hd Hf Hr (cols & Lc & K & ->). set (n := Z.to_nat (dw_steps d)) in *. set (ps := rollout n (dw_dt d) u x0).
  set (z := V3 0 0 0). exists (fun k => nth k cols z).
  exists (fun k => Rabs (normalize_angle_PI (normalize_angle_PI (v2 (nth k cols z)) - v2 (nth k ps z)))).
  assert (P : forall k, (k < n)%nat -> exists m, nth k ps z = shift (gamma (INR (S k) * dw_dt d)) m).
  { intros k Hk. destruct (rollout_flow (dw_dt d) u Hd n x0 k Hk) as [m E]. exists m. fold ps in E.
    rewrite (nth_error_nth _ _ z E). rewrite (follows_unique _ _ _ Hf). reflexivity. }
  split.
  - intros k Hk. assert (Hk' : (k < n)%nat) by (unfold n; lia). split.
    + destruct (nth_error cols k) as [r|] eqn:E; [|apply nth_error_None in E; lia].
      rewrite (nth_error_nth _ _ z E). destruct (K k r E) as (j & Hj & J1 & J2).
      cbn [ntrunc nround nmul ndiv nofZ RNum] in J1. rewrite Ztrunc_IZR, ref_size, minus_IZR, time_R in J1 by exact Hr.
      injection J1 as J1. rewrite J1. exact J2.
    + destruct (P k Hk') as [m E]. rewrite E. cbn [v2 shift].
      apply (between_shift _ _ m). apply wrapped_between.
  - rewrite deviation_total.
    assert (L : length (combine ps cols) = n) by (rewrite combine_length, Lc; unfold ps; rewrite rollout_len; lia).
    rewrite <- L. apply total_seq. intros k pr E. destruct (nth_combine _ _ _ _ E) as (E1 & E2). rewrite Nat.add_0_l.
    rewrite (nth_error_nth _ _ z E1), (nth_error_nth _ _ z E2). f_equal.
    assert (Hk : (k < n)%nat) by (rewrite <- L; apply nth_error_Some; congruence).
    destruct (P k Hk) as [m Em]. rewrite (nth_error_nth _ _ z E1) in Em. unfold gap. rewrite Em. reflexivity.
Qed.

(** ** The window over the reals *)
Lemma low_R v r a : low v r a = Rmax (v - r) a.
Proof.
  unfold low. cbn [nlt nsub RNum]. destruct (Rltb (v - r) a) eqn:E; [apply Rltb_true in E|apply Rltb_false in E];
    [rewrite Rmax_right|rewrite Rmax_left]; lra.
Qed.
Lemma high_R v r a : high v r a = Rmin (v + r) a.
Proof.
  unfold high. cbn [nlt nadd RNum]. destruct (Rltb a (v + r)) eqn:E; [apply Rltb_true in E|apply Rltb_false in E];
    [rewrite Rmin_right|rewrite Rmin_left]; lra.
Qed.
Lemma sample_R lo hi n i : (Z.of_nat i < n)%Z -> (1 < n)%Z -> sample lo hi n i = lo + INR i * ((hi - lo) / (IZR n - 1)).
Proof.
  intros _ Hn. unfold sample, spacing. destruct (Z.ltb_spec 1 n); [|lia]. cbn [nadd ndiv nsub nofZ RNum]. rewrite minus_IZR.
  set (s := (hi - lo) / (IZR n - 1)). clearbody s.
  induction i as [|i IH]; [cbn; lra|]. rewrite S_INR. cbn [Nat.iter nat_rect] in *. unfold Nat.iter in IH. rewrite IH. lra.
Qed.
Lemma sample_1 (lo hi : R) i : (Z.of_nat i < 1)%Z -> sample lo hi 1 i = lo.
Proof. intros H. destruct i; [reflexivity|lia]. Qed.
Lemma sample_between lo hi n i : lo <= hi -> (Z.of_nat i < n)%Z -> lo <= sample lo hi n i <= hi.
Proof.
  intros H Hi. destruct (Z.eq_dec n 1) as [-> |Hn]; [rewrite sample_1 by exact Hi; lra|].
  rewrite sample_R by lia. assert (1 < IZR n) by (apply IZR_lt; lia).
  assert (INR i <= IZR n - 1) by (rewrite INR_IZR_INZ, <- minus_IZR; apply IZR_le; lia). pose proof (pos_INR i).
  assert (0 <= (hi - lo) / (IZR n - 1)) by (apply Rmult_le_pos; [lra|left; apply Rinv_0_lt_compat; lra]).
  assert ((IZR n - 1) * ((hi - lo) / (IZR n - 1)) = hi - lo) by (field; lra). nra.
Qed.
Lemma c51_axis dt v acc vmin vmax n x : 0 <= acc * dt -> vmin <= vmax -> vmin - acc * dt <= v <= vmax + acc * dt ->
  on_axis dt v acc vmin vmax n x -> vmin <= x <= vmax /\ Rabs (x - v) <= acc * dt.
Proof.
  intros Hr Hm Hv (i & Hi & ->). cbn [nmul RNum]. rewrite low_R, high_R. set (r := acc * dt) in *.
  pose proof (Rmax_l (v - r) vmin). pose proof (Rmax_r (v - r) vmin). pose proof (Rmin_l (v + r) vmax). pose proof (Rmin_r (v + r) vmax).
  assert (Rmax (v - r) vmin <= Rmin (v + r) vmax) by (apply Rmax_lub; apply Rmin_glb; lra).
  pose proof (sample_between _ _ n i H3 Hi). split; [lra|]. apply Rabs_le. lra.
Qed.
Lemma c51_ends dt v acc vmin vmax n : (2 <= n)%Z ->
  on_axis dt v acc vmin vmax n (Rmax (v - acc * dt) vmin) /\ on_axis dt v acc vmin vmax n (Rmin (v + acc * dt) vmax).
Proof.
  intros Hn. assert (1 < IZR n) by (apply IZR_lt; lia). split.
  - exists 0%nat. split; [lia|]. cbn [nmul RNum]. rewrite low_R, high_R. unfold sample. reflexivity.
  - exists (Z.to_nat (n - 1)). split; [lia|]. cbn [nmul RNum]. rewrite low_R, high_R, sample_R by lia.
    rewrite INR_IZR_INZ, Z2Nat.id, minus_IZR by lia. field. lra.
Qed.
Lemma c51_one dt v acc vmin vmax : forall x, on_axis dt v acc vmin vmax 1 x <-> x = Rmax (v - acc * dt) vmin.
Proof.
  intros x. split.
  - intros (i & Hi & ->). rewrite sample_1 by exact Hi. apply low_R.
  - intros ->. exists 0%nat. split; [lia|]. rewrite sample_1 by lia. symmetry. apply low_R.
Qed.

(** Inverted windows *)
Lemma c52_axis dt v acc vmin vmax n : vmin <= vmax -> vmax < v - acc * dt -> 0 <= acc * dt ->
  forall x, on_axis dt v acc vmin vmax n x -> vmax <= x.
Proof.
  intros Hm Hv Hr x (i & Hi & ->). cbn [nmul RNum]. rewrite low_R, high_R, Rmax_left, Rmin_right by lra.
  destruct (Z.eq_dec n 1) as [-> |Hn]; [rewrite sample_1 by exact Hi; lra|].
  rewrite sample_R by lia. assert (1 < IZR n) by (apply IZR_lt; lia).
  assert (INR i <= IZR n - 1) by (rewrite INR_IZR_INZ, <- minus_IZR; apply IZR_le; lia). pose proof (pos_INR i).
  set (lo := v - acc * dt) in *. set (s := (vmax - lo) / (IZR n - 1)).
  assert (s <= 0). { unfold s, Rdiv. pose proof (Rinv_0_lt_compat (IZR n - 1) ltac:(lra)). nra. }
  assert ((IZR n - 1) * s = vmax - lo) by (unfold s; field; lra). nra.
Qed.
Lemma c52_first dt v acc vmin vmax n : (1 <= n)%Z -> vmin <= vmax -> vmax < v - acc * dt ->
  exists x, on_axis dt v acc vmin vmax n x /\ vmax < x.
Proof.
  intros Hn Hm Hv. exists (v - acc * dt). split; [|exact Hv]. exists 0%nat. split; [lia|]. unfold sample. cbn [Nat.iter nat_rect].
  cbn [nmul RNum]. rewrite low_R, Rmax_left; [reflexivity|lra].
Qed.
Lemma c52_single (d : dwa R) g x0 vb vref u : dw_nx d = 1%Z -> v0 (dw_min d) <= v0 (dw_max d) ->
  v0 (dw_max d) < v0 vb - v0 (dw_acc d) * dw_acc_dt d ->
  dwa_control d g x0 vb vref = Ok (true, u) -> v0 (dw_max d) < v0 u.
Proof.
  intros Hn Hm Hv H. destruct (c50_success _ _ _ _ _ _ H) as ((S & _) & _). rewrite Hn in S. apply c51_one in S. rewrite S, Rmax_left by lra. lra.
Qed.
Lemma c52_cart (d : dwa R) g x0 vb vref u : dw_ny d = 1%Z -> v1 (dw_min d) = 0 -> v1 (dw_max d) = 0 -> v1 (dw_acc d) = 0 ->
  0 <= v1 vb -> dwa_control d g x0 vb vref = Ok (true, u) -> v1 u = v1 vb.
Proof.
  intros Hn Hmin Hmax Ha Hv H. destruct (c50_success _ _ _ _ _ _ H) as ((_ & S & _) & _). rewrite Hn in S.
  apply c51_one in S. rewrite S, Ha, Hmin, Rmax_left; lra.
Qed.
Lemma c52_cart_follow (d : dwa R) g x0 vb ref dtr u : dw_ny d = 1%Z -> v1 (dw_min d) = 0 -> v1 (dw_max d) = 0 -> v1 (dw_acc d) = 0 ->
  0 <= v1 vb -> dwa_follow d g x0 vb ref dtr = Ok (true, u) -> v1 u = v1 vb.
Proof.
  intros Hn Hmin Hmax Ha Hv H. destruct (c50_follow _ _ _ _ _ _ _ H) as ((_ & S & _) & _). rewrite Hn in S.
  apply c51_one in S. rewrite S, Ha, Hmin, Rmax_left; lra.
Qed.

(** ** Sample counts *)
Lemma c53_counts {T} {NT : Num T} c (dt h adt a1 a2 a3 b1 b2 b3 b4 b5 b6 : T) nx ny nth d :
  (0 <= nx)%Z -> (0 <= ny)%Z -> (0 <= nth)%Z ->
  dwa_ctor c dt h adt a1 a2 a3 b1 b2 b3 b4 b5 b6 nx ny nth = Ok d ->
  (dw_nx d = Z.max 1 nx /\ dw_ny d = Z.max 1 ny /\ dw_nth d = Z.max 1 nth)%Z.
Proof.
  intros Hx Hy Ht H. unfold dwa_ctor in H. destruct (num_steps dt h); cbn [bind] in H; try discriminate. injection H as <-. cbn [dw_nx dw_ny dw_nth].
  repeat split; match goal with |- (if (?a =? ?b)%Z then _ else _) = _ => destruct (Z.eqb_spec a b) end; lia.
Qed.
Lemma c53_evaluated {T} {NT : Num T} (d : dwa T) vb : (1 <= dw_nx d)%Z -> (1 <= dw_ny d)%Z -> (1 <= dw_nth d)%Z ->
  exists l, lenZ l = (dw_nx d * dw_ny d * dw_nth d)%Z /\ (forall u, In u l <-> sampled d vb u) /\
    forall obj, dwa_search d obj vb =
      (let* ' (m, u) := select obj l (nmax, V3 n0 n0 n0) in Ok (negb (almost_equal m nmax), u)).
Proof.
  intros Hx Hy Ht. exists (grid_of d vb). split; [|split].
  - unfold grid_of, lenZ. destruct (dwa_window d vb). rewrite twists_len. rewrite !Nat2Z.inj_mul, !Z2Nat.id by lia. ring.
  - exact (grid_of_sampled d vb).
  - intros obj. rewrite search_select. destruct (select _ _ _) as [[m u]| | |]; cbn [bind]; try reflexivity.
    destruct (almost_equal m nmax); reflexivity.
Qed.

(** ** The reference index *)
Lemma nearA_le x n : 0 <= x -> (0 <= n)%Z -> ((ZnearestA x <= n)%Z <-> x < IZR n + 1 / 2).
Proof.
  intros Hx Hn. pose proof (Znearest_half (Z.leb 0) x) as N. apply Rabs_le_inv in N. split; intros H.
  - destruct (Rlt_or_le x (IZR n + 1 / 2)) as [L|L]; [exact L|exfalso]. destruct (Req_dec x (IZR n + 1 / 2)) as [E|E].
    + assert (F : Zfloor x = n). { apply Zfloor_imp. rewrite plus_IZR. lra. }
      unfold Znearest in H. rewrite F in H. replace (x - IZR n) with (/ 2) in H by lra. rewrite Rcompare_Eq in H by reflexivity.
      destruct (Z.leb_spec 0 n); [|lia]. rewrite Zceil_floor_neq in H by (rewrite F; lra). rewrite F in H. lia.
    + apply IZR_le in H. lra.
  - apply Zlt_succ_le. apply lt_IZR. rewrite succ_IZR. lra.
Qed.
Definition fits (ref : list (vec3 R)) (tf t : R) : Prop := (IZR (lenZ ref) - 1) * t < (IZR (lenZ ref) - 1 / 2) * tf.
Lemma index_fits (ref : list (vec3 R)) tf t : (0 < lenZ ref <= two32)%Z -> 0 < tf -> 0 <= t ->
  (fits ref tf t -> exists r, (let* j := ref_index ref t tf in col_at ref j) = Ok r) /\
  (~ fits ref tf t -> (let* j := ref_index ref t tf in col_at ref j) = Throw EArma \/ (let* j := ref_index ref t tf in col_at ref j) = UB UFloatCast).
Proof.
  intros Hl Ht H0. unfold ref_index, to_u32, fits. cbn [nround nofZ nmul ndiv ntrunc RNum].
  rewrite ref_size by (unfold two32, two64 in *; lia). rewrite Ztrunc_IZR, minus_IZR.
  set (x := (IZR (lenZ ref) - 1) * t / tf).
  assert (1 <= IZR (lenZ ref)) by (apply IZR_le; lia).
  assert (X : 0 <= x). { unfold x, Rdiv. apply Rmult_le_pos; [nra|left; apply Rinv_0_lt_compat; lra]. }
  assert (E : x * tf = (IZR (lenZ ref) - 1) * t) by (unfold x; field; lra).
  assert (I : (IZR (lenZ ref) - 1) * t < (IZR (lenZ ref) - 1 / 2) * tf <-> x < IZR (lenZ ref - 1) + 1 / 2).
  { rewrite minus_IZR, <- E. split; intros; nra. }
  rewrite I, <- nearA_le by (exact X || lia).
  assert (P : (0 <= ZnearestA x)%Z).
  { apply le_IZR. pose proof (Znearest_half (Z.leb 0) x) as N. apply Rabs_le_inv in N.
    apply IZR_le. apply Zlt_succ_le. apply lt_IZR. rewrite succ_IZR.
    destruct (Rlt_or_le 0 (IZR (ZnearestA x) + 1)) as [L|L]; [lra|]. lra. }
  split; intros H1.
  - destruct (Z.leb_spec 0 (ZnearestA x)); [|lia]. destruct (Z.ltb_spec (ZnearestA x) two32); [|lia]. cbn [andb bind].
    destruct (col_at_total ref (Z.to_nat (ZnearestA x))) as (r & Hr); [unfold lenZ in *; lia|]. rewrite Z2Nat.id in Hr by exact P. exists r. exact Hr.
  - destruct (Z.leb_spec 0 (ZnearestA x)); [|lia]. destruct (Z.ltb_spec (ZnearestA x) two32); cbn [andb bind]; [left|right; reflexivity].
    rewrite <- (Z2Nat.id (ZnearestA x)) by exact P. apply col_at_throw. unfold lenZ in *. lia.
Qed.
Local Opaque collisionCheck integrate_twist normalize_angle_PI.
Lemma loop_fits d g u ref tf : (0 < lenZ ref <= two32)%Z -> 0 < tf -> 0 <= dw_dt d -> forall n x t s, 0 <= t ->
  Forall (clear (dw_collision d) g) (rollout n (dw_dt d) u x) ->
  ((forall k, (k < n)%nat -> fits ref tf (t + INR k * dw_dt d)) -> is_ok (objective_loop n d g u ref tf x t s) = true) /\
  (~ (forall k, (k < n)%nat -> fits ref tf (t + INR k * dw_dt d)) ->
     objective_loop n d g u ref tf x t s = Throw EArma \/ objective_loop n d g u ref tf x t s = UB UFloatCast).
Proof.
  intros Hl Ht Hd. induction n as [|n IH]; intros x t s H0 F; cbn [objective_loop rollout] in *; cbv zeta in *.
  - split; [reflexivity|]. intros H. destruct H. intros k Hk. lia.
  - set (y := V3 _ _ _) in *. inversion F as [|? ? Fy Fr]; subst. unfold clear in Fy. rewrite Fy. cbn [bind].
    destruct (index_fits ref tf t Hl Ht H0) as (I1 & I2).
    assert (D : fits ref tf t \/ ~ fits ref tf t) by (unfold fits; destruct (Rlt_dec ((IZR (lenZ ref) - 1) * t) ((IZR (lenZ ref) - 1 / 2) * tf)); [left|right]; assumption).
    assert (N : (forall k, (k < S n)%nat -> fits ref tf (t + INR k * dw_dt d)) <->
                fits ref tf t /\ forall k, (k < n)%nat -> fits ref tf (t + dw_dt d + INR k * dw_dt d)).
    { split.
      - intros H. split; [replace t with (t + INR 0 * dw_dt d) by (cbn; lra); apply H; lia|]. intros k Hk.
        replace (t + dw_dt d + INR k * dw_dt d) with (t + INR (S k) * dw_dt d) by (rewrite S_INR; lra). apply H. lia.
      - intros (A & B) [|k] Hk; [replace (t + INR 0 * dw_dt d) with t by (cbn; lra); exact A|].
        replace (t + INR (S k) * dw_dt d) with (t + dw_dt d + INR k * dw_dt d) by (rewrite S_INR; lra). apply B. lia. }
    rewrite N. destruct (ref_index ref t tf) as [j|e|e|] eqn:J; cbn [bind] in *.
    + destruct (col_at ref j) as [r|e|e|] eqn:C; cbn [bind] in *.
      * destruct D as [D|D]; [|destruct (I2 D); discriminate].
        match goal with |- context [objective_loop n d g u ref tf y ?t' ?s'] => destruct (IH y t' s') as (A & B) end;
          [cbn [nadd RNum]; lra|exact Fr|]. cbn [nadd RNum] in *. split; [intros (_ & H); apply A; exact H|].
        intros H. apply B. intros K. apply H. split; assumption.
      * split; [intros (H & _); destruct (I1 H); discriminate|]. intros _. destruct D as [D|D]; [destruct (I1 D); discriminate|destruct (I2 D) as [Q|Q]; [left|right]; congruence].
      * split; [intros (H & _); destruct (I1 H); discriminate|]. intros _. destruct D as [D|D]; [destruct (I1 D); discriminate|destruct (I2 D) as [Q|Q]; [left|right]; congruence].
      * split; [intros (H & _); destruct (I1 H); discriminate|]. intros _. destruct D as [D|D]; [destruct (I1 D); discriminate|destruct (I2 D) as [Q|Q]; [left|right]; congruence].
    + split; [intros (H & _); destruct (I1 H); discriminate|]. intros _. destruct D as [D|D]; [destruct (I1 D); discriminate|destruct (I2 D) as [Q|Q]; [left|right]; congruence].
    + split; [intros (H & _); destruct (I1 H); discriminate|]. intros _. destruct D as [D|D]; [destruct (I1 D); discriminate|destruct (I2 D) as [Q|Q]; [left|right]; congruence].
    + split; [intros (H & _); destruct (I1 H); discriminate|]. intros _. destruct D as [D|D]; [destruct (I1 D); discriminate|destruct (I2 D) as [Q|Q]; [left|right]; congruence].
Qed.
Lemma c54_exact (d : dwa R) g x0 u ref tf : (0 < lenZ ref <= two32)%Z -> 0 < tf -> 0 < dw_dt d -> (1 <= dw_steps d)%Z -> safe d g x0 u ->
  ((IZR (lenZ ref) - 1) * ((IZR (dw_steps d) - 1) * dw_dt d) < (IZR (lenZ ref) - 1 / 2) * tf ->
     is_ok (objective_traj d g x0 u ref tf) = true) /\
  ((IZR (lenZ ref) - 1 / 2) * tf <= (IZR (lenZ ref) - 1) * ((IZR (dw_steps d) - 1) * dw_dt d) ->
     objective_traj d g x0 u ref tf = Throw EArma \/ objective_traj d g x0 u ref tf = UB UFloatCast).
Proof.
  intros Hl Ht Hd Hs S. destruct (loop_fits d g u ref tf Hl Ht ltac:(lra) (Z.to_nat (dw_steps d)) x0 0 0 ltac:(lra) S) as (A & B).
  assert (1 <= IZR (lenZ ref)) by (apply IZR_le; lia). split; intros H1.
  - apply A. intros k Hk. unfold fits. assert (INR k <= IZR (dw_steps d) - 1).
    { rewrite INR_IZR_INZ, <- minus_IZR. apply IZR_le. lia. }
    apply Rle_lt_trans with (2 := H1). apply Rmult_le_compat_l; [lra|]. nra.
  - apply B. intros H2. specialize (H2 (Z.to_nat (dw_steps d - 1)) ltac:(lia)). unfold fits in H2.
    rewrite INR_IZR_INZ, Z2Nat.id, minus_IZR in H2 by lia. lra.
Qed.
Lemma c54_in_range (d : dwa R) g x0 u ref tf : (0 < lenZ ref <= two32)%Z -> 0 < dw_dt d -> 0 < tf ->
  IZR (dw_steps d) * dw_dt d <= tf -> safe d g x0 u -> is_ok (objective_traj d g x0 u ref tf) = true.
Proof.
  intros Hl Hd Ht Hh S. destruct (Z.le_gt_cases (dw_steps d) 0) as [Z|Z].
  - unfold objective_traj. replace (Z.to_nat (dw_steps d)) with 0%nat by lia. reflexivity.
  - apply (proj1 (c54_exact d g x0 u ref tf Hl Ht Hd ltac:(lia) S)). assert (1 <= IZR (lenZ ref)) by (apply IZR_le; lia).
    assert (1 <= IZR (dw_steps d)) by (apply IZR_le; lia). nra.
Qed.
Lemma select_total {T} {NT : Num T} obj (l : list (vec3 T)) : (forall u, In u l -> is_ok (obj u) = true) ->
  forall st, is_ok (select obj l st) = true.
Proof.
  induction l as [|u l IH]; intros H st; [reflexivity|]. cbn [select]. pose proof (H u (or_introl eq_refl)) as E.
  destruct (obj u); try discriminate. cbn [bind]. apply IH. intros v Hv. apply H. right. exact Hv.
Qed.
Lemma search_total {T} {NT : Num T} (d : dwa T) obj vb : (forall u, sampled d vb u -> is_ok (obj u) = true) ->
  is_ok (dwa_search d obj vb) = true.
Proof.
  intros H. rewrite search_select. pose proof (select_total obj (grid_of d vb)) as S.
  assert (A : forall u, In u (grid_of d vb) -> is_ok (obj u) = true) by (intros u Hu; apply H; apply grid_of_sampled; exact Hu).
  specialize (S A (nmax, V3 n0 n0 n0)). destruct (select _ _ _) as [[m u]| | |]; try discriminate. cbn [bind]. destruct (almost_equal _ _); reflexivity.
Qed.
Definition answers (c : collision R) (g : grid R) (p : vec3 R) : Prop := is_ok (collisionCheck c g (v0 p) (v1 p)) = true.
Lemma crash_ok (d : dwa R) g x0 u ref tf : (0 < lenZ ref <= two32)%Z -> 0 < dw_dt d -> 0 < tf ->
  IZR (dw_steps d) * dw_dt d <= tf -> Forall (answers (dw_collision d) g) (rollout (Z.to_nat (dw_steps d)) (dw_dt d) u x0) ->
  is_ok (objective_traj d g x0 u ref tf) = true.
Proof.
  intros Hl Hd Ht Hh Hc. unfold objective_traj.
  assert (G : forall n x t s, Forall (answers (dw_collision d) g) (rollout n (dw_dt d) u x) -> 0 <= t -> (forall k, (k < n)%nat -> fits ref tf (t + INR k * dw_dt d)) ->
    is_ok (objective_loop n d g u ref tf x t s) = true).
  { induction n as [|n IH]; intros x t s A H0 F; [reflexivity|]. cbn [objective_loop rollout] in *. cbv zeta in *.
    set (y := V3 _ _ _) in *. inversion A as [|? ? C A']; subst. unfold answers in C. destruct (collisionCheck _ _ _ _) as [[|]| | |]; try discriminate; [reflexivity|].
    cbn [bind]. destruct (proj1 (index_fits ref tf t Hl Ht H0)) as (r & R).
    { replace t with (t + INR 0 * dw_dt d) by (cbn; lra). apply F. lia. }
    destruct (ref_index ref t tf) as [j| | |]; try discriminate. cbn [bind] in *. rewrite R. cbn [bind].
    apply IH; cbn [nadd RNum]; [exact A'|lra|]. intros k Hk. replace (t + dw_dt d + INR k * dw_dt d) with (t + INR (S k) * dw_dt d) by (rewrite S_INR; lra).
    apply F. lia. }
  apply G; [exact Hc|cbn; lra|]. intros k Hk. unfold fits. unfold n0. cbn [nofZ RNum]. rewrite Rplus_0_l.
  assert (1 <= IZR (lenZ ref)) by (apply IZR_le; lia).
  assert (INR k + 1 <= IZR (dw_steps d)). { rewrite INR_IZR_INZ, <- plus_IZR. apply IZR_le. lia. }
  pose proof (pos_INR k). assert (INR k * dw_dt d < tf) by nra. nra.
Qed.
Lemma c54_follow (d : dwa R) g x0 vb ref dtr : (0 < lenZ ref <= two32)%Z -> 0 < dw_dt d -> 0 < dtr ->
  IZR (dw_steps d) * dw_dt d <= IZR (lenZ ref) * dtr ->
  (forall u p, sampled d vb u -> In p (rollout (Z.to_nat (dw_steps d)) (dw_dt d) u x0) -> is_ok (collisionCheck (dw_collision d) g (v0 p) (v1 p)) = true) ->
  is_ok (dwa_follow d g x0 vb ref dtr) = true.
Proof.
  intros Hl Hd Hr Hh Hc. unfold dwa_follow. cbv zeta. apply search_total. intros u Hu.
  apply crash_ok; try assumption. { cbn [nmul nofZ RNum]. apply Rmult_lt_0_compat; [|exact Hr]. apply IZR_lt. lia. }
  apply Forall_forall. intros p Hp. exact (Hc u p Hu Hp).
Qed.
Lemma c54_empty (L : libm) (d : dwa b64) g x0 u (dtr : b64) p rest : (1 <= dw_steps d)%Z ->
  @rollout b64 (F64 L) (Z.to_nat (dw_steps d)) (dw_dt d) u x0 = p :: rest -> @clear b64 (F64 L) (dw_collision d) g p ->
  @objective_traj b64 (F64 L) d g x0 u [] (@nmul b64 (F64 L) (@nofZ b64 (F64 L) 0) dtr) = UB UFloatCast.
Proof.
  intros Hs R C. unfold objective_traj. destruct (Z.to_nat (dw_steps d)) as [|n]; [discriminate|]. cbn [rollout objective_loop] in *. cbv zeta in *.
  injection R as <- _. unfold clear in C. rewrite C. cbn [bind].
  replace (@ref_index b64 (F64 L) [] n0 (@nmul b64 (F64 L) (@nofZ b64 (F64 L) 0) dtr)) with (@UB Z UFloatCast); [reflexivity|].
  unfold ref_index, to_u32. cbn [nmul nofZ ndiv nround ntrunc F64]. unfold n0. cbn [nofZ F64].
  destruct dtr as [s|s| |s m e q]; [destruct s|destruct s| |destruct s]; vm_compute; reflexivity.
Qed.
