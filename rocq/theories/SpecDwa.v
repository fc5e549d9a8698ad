(** Reference notions for the dynamic window, independent of the model functions it is checked against. *)
From Coq Require Import Reals ZArith List Bool.
From Verif Require Import Outcome Num GridModel CollisionModel NumericsModel DwaModel SpecMotion SpecRobot.
Import ListNotations.

Section Any.
Context {T : Type} {NT : Num T}.
Local Open Scope num_scope.

(** The ends of the window on one axis: reachable velocities within the limits. *)
Definition low (v reach vmin : T) : T := if v - reach <? vmin then vmin else v - reach.
Definition high (v reach vmax : T) : T := if vmax <? v + reach then vmax else v + reach.
(** The [i]-th of [n] equally spaced samples, reached by repeated addition. *)
Definition spacing (lo hi : T) (n : Z) : T := if (1 <? n)%Z then (hi - lo) / nofZ (n - 1) else n0.
Definition sample (lo hi : T) (n : Z) (i : nat) : T := Nat.iter i (fun v => v + spacing lo hi n) lo.

(** [x] is one of the samples of the axis given by its velocity, acceleration limit and velocity limits. *)
Definition on_axis (dt v acc vmin vmax : T) (n : Z) (x : T) : Prop :=
  exists i, (Z.of_nat i < n)%Z /\ x = sample (low v (acc * dt) vmin) (high v (acc * dt) vmax) n i.
(** [u] is one of the twists of the window around [vb]. *)
Definition sampled (d : dwa T) (vb u : vec3 T) : Prop :=
  on_axis (dw_acc_dt d) (v0 vb) (v0 (dw_acc d)) (v0 (dw_min d)) (v0 (dw_max d)) (dw_nx d) (v0 u) /\
  on_axis (dw_acc_dt d) (v1 vb) (v1 (dw_acc d)) (v1 (dw_min d)) (v1 (dw_max d)) (dw_ny d) (v1 u) /\
  on_axis (dw_acc_dt d) (v2 vb) (v2 (dw_acc d)) (v2 (dw_min d)) (v2 (dw_max d)) (dw_nth d) (v2 u).

(** The poses visited from [x] in [n] steps of the constant twist [u], the heading being wrapped. *)
Fixpoint rollout (n : nat) (dt : T) (u x : vec3 T) : list (vec3 T) :=
  match n with
  | O => []
  | S n => let y := integrate_twist x u dt in
           let y := V3 (v0 y) (v1 y) (normalize_angle_PI (v2 y)) in y :: rollout n dt u y
  end.
Definition clear (c : collision T) (g : grid T) (p : vec3 T) : Prop := collisionCheck c g (v0 p) (v1 p) = Ok false.
Definition crash (c : collision T) (g : grid T) (p : vec3 T) : Prop := collisionCheck c g (v0 p) (v1 p) = Ok true.
(** The rollout of [u] from [x0] never collides, or does. *)
Definition safe (d : dwa T) (g : grid T) (x0 u : vec3 T) : Prop :=
  Forall (clear (dw_collision d) g) (rollout (Z.to_nat (dw_steps d)) (dw_dt d) u x0).
Definition collides (d : dwa T) (g : grid T) (x0 u : vec3 T) : Prop :=
  Exists (crash (dw_collision d) g) (rollout (Z.to_nat (dw_steps d)) (dw_dt d) u x0).

(** Squared distance to the reference twist. *)
Definition err (vref u : vec3 T) : T :=
  (v0 vref - v0 u) * (v0 vref - v0 u) + (v1 vref - v1 u) * (v1 vref - v1 u) + (v2 vref - v2 u) * (v2 vref - v2 u).

(** The reference column the k-th pose is compared with: the nearest one to the time k * dt (by repeated
    addition) when the duration [tf] is spread over the columns. *)
Definition at_time (dt : T) (k : nat) : T := Nat.iter k (fun t => t + dt) n0.
Definition nearest_column (ref : list (vec3 T)) (dt tf : T) (k : nat) (r : vec3 T) : Prop :=
  exists j, (0 <= j < two32)%Z /\ ntrunc (nround (nofZ ((lenZ ref - 1) mod two64) * at_time dt k / tf)) = Some j /\ nth_error ref (Z.to_nat j) = Some r.
(** Sum over (pose, reference column): distance of the positions, then of the headings. *)
Definition deviation (l : list (vec3 T * vec3 T)) : T :=
  fold_left (fun s pr => s + nsqrt ((v0 (snd pr) - v0 (fst pr)) * (v0 (snd pr) - v0 (fst pr)) +
                                    (v1 (snd pr) - v1 (fst pr)) * (v1 (snd pr) - v1 (fst pr)))
                           + nabs (normalize_angle_PI (normalize_angle_PI (v2 (snd pr)) - v2 (fst pr)))) l n0.
(** [c] is the deviation of the rollout of [u] from the reference. *)
Definition follow_cost (d : dwa T) (x0 u : vec3 T) (ref : list (vec3 T)) (tf : T) (c : T) : Prop :=
  exists cols, length cols = Z.to_nat (dw_steps d) /\
    (forall k r, nth_error cols k = Some r -> nearest_column ref (dw_dt d) tf k r) /\
    c = deviation (combine (rollout (Z.to_nat (dw_steps d)) (dw_dt d) u x0) cols).

(** The first twist of least value below [m], taken one after the other. *)
Fixpoint select (obj : vec3 T -> res T) (l : list (vec3 T)) (st : T * vec3 T) : res (T * vec3 T) :=
  match l with
  | [] => Ok st
  | u :: l => let* c := obj u in select obj l (if c <? fst st then (c, u) else st)
  end.
End Any.

Local Open Scope R_scope.
(** [r] is the angle between two directions. *)
Definition angle_between (a b r : R) : Prop := 0 <= r <= PI /\ (same_angle (a - b) r \/ same_angle (a - b) (- r)).
