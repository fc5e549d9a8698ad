(** Reference notions for the ergodic controller. *)
From Coq Require Import Reals ZArith List Bool.
From Flocq Require Import IEEE754.BinarySingleNaN.
From Coquelicot Require Import Coquelicot.
From Verif Require Import Outcome Num Float64 GridModel NumericsModel BufferModel BasisModel RobotModel ErgodicModel SpecBasis SpecRobot.
Import ListNotations.

Section Any.
Context {T : Type} {NT : Num T}.

(** One successful call on a controller. *)
Inductive call : ec T -> ec T -> Prop :=
| call_control e g x draws u e' : ec_control e g x draws = Ok (u, e') -> call e e'
| call_add e x : call e (addStateMemory e x)
| call_target e t : call e (setTarget e t)
| call_config e g e' : configTarget e g = Ok e' -> call e e'.
Inductive history (e : ec T) : ec T -> Prop :=
| history_nil : history e e
| history_snoc e1 e2 : history e e1 -> call e1 e2 -> history e e2.
(** The same without control. *)
Inductive idle_call : ec T -> ec T -> Prop :=
| idle_add e x : idle_call e (addStateMemory e x)
| idle_target e t : idle_call e (setTarget e t)
| idle_config e g e' : configTarget e g = Ok e' -> idle_call e e'.
Inductive idle (e : ec T) : ec T -> Prop :=
| idle_nil : idle e e
| idle_snoc e1 e2 : idle e e1 -> idle_call e1 e2 -> idle e e2.

(** A controller as the constructor makes it. *)
Definition constructed (e : ec T) : Prop := exists m dt h r w nb size batch Rinv umin umax,
  (0 <= nb /\ 0 <= size < two32 /\ 0 <= batch < two32)%Z /\
  ec_ctor m dt h r w nb size batch Rinv umin umax = Ok e.
Definition reachable (e : ec T) : Prop := exists e0, constructed e0 /\ history e0 e.
End Any.

(** A double between two others, or not a number. *)
Definition within64 (lo hi c : b64) : Prop := is_nan c = true \/ (Bleb lo c = true /\ Bleb c hi = true).
Definition in_box64 (lo hi u : vec3 b64) : Prop :=
  within64 (v0 lo) (v0 hi) (v0 u) /\ within64 (v1 lo) (v1 hi) (v1 u) /\ within64 (v2 lo) (v2 hi) (v2 u).

Definition limits64 (e : ec b64) : Prop :=
  Bleb (v0 (ec_umin e)) (v0 (ec_umax e)) = true /\ Bleb (v1 (ec_umin e)) (v1 (ec_umax e)) = true /\ Bleb (v2 (ec_umin e)) (v2 (ec_umax e)) = true.
(** What arma::randi may return when the memory holds more states than a batch. *)
Definition drawable {T} (b : buffer T) (draws : list Z) : Prop :=
  (lenZ (b_mem b) <= b_batch b)%Z \/ (lenZ draws = b_batch b /\ Forall (fun k => (0 <= k < lenZ (b_mem b))%Z) draws).

Local Open Scope R_scope.
(** Componentwise order. *)
Definition in_box (lo hi u : vec3 R) : Prop := v0 lo <= v0 u <= v0 hi /\ v1 lo <= v1 u <= v1 hi /\ v2 lo <= v2 u <= v2 hi.

(** Mean of a mode over points, and the weighted squared distance of such means to given coefficients. *)
Definition coeff (lx ly : R) (k : Z * Z) (pts : list (R * R)) : R := mean (map (fun p => mode lx ly k (fst p) (snd p)) pts).
Definition metric (lx ly : R) (lam : list R) (ks : list (Z * Z)) (phik : list R) (pts : list (R * R)) : R :=
  rsum (map (fun c => fst c * (coeff lx ly (fst (snd c)) pts - snd (snd c)) ^ 2) (combine lam (combine ks phik))).
(** The list with element [i] replaced. *)
Fixpoint put {A} (l : list A) (i : nat) (a : A) : list A :=
  match l, i with
  | [], _ => []
  | _ :: l, O => a :: l
  | b :: l, S i => b :: put l i a
  end.

(** 25 times the squared distance by which a coordinate leaves [0.05, l - 0.05] on each side. *)
Definition barrier (l x : R) : R := 25 * (Rmax 0 (x - (l - 1 / 20)) ^ 2 + Rmax 0 (1 / 20 - x) ^ 2).

(** Half the weighted control effort plus the co-state times the velocity of the body. *)
Definition dot (a b : vec3 R) : R := v0 a * v0 b + v1 a * v1 b + v2 a * v2 b.
Definition hamiltonian (w x rho u : vec3 R) : R :=
  (v0 w * v0 u ^ 2 + v1 w * v1 u ^ 2 + v2 w * v2 u ^ 2) / 2 + dot rho (body (v2 x) u).
Definition unique_minimiser (P : vec3 R -> Prop) (f : vec3 R -> R) (u : vec3 R) : Prop :=
  P u /\ forall v, P v -> v <> u -> f u < f v.
Definition diag (a b c : R) : mat3 R := M3 (V3 a 0 0) (V3 0 b 0) (V3 0 0 c).

(** The points (i r, j r), i < nx, j < ny, row by row. *)
Definition lattice (nx ny : nat) (r : R) : list (R * R) :=
  flat_map (fun j => map (fun i => (INR i * r, INR j * r)) (seq 0 nx)) (seq 0 ny).
(** A Gaussian (mean and standard deviations), and the sum of several of them. *)
Definition bumps (ps : list (R * R * R * R)) (x y : R) : R :=
  rsum (map (fun p => let '(mx, my, sx, sy) := p in bump mx my sx sy x y) ps).
(** [t] is the target consisting of the given Gaussians. *)
Definition describes (ps : list (R * R * R * R)) (t : target R) : Prop :=
  Forall2 (fun p g => let '(mx, my, sx, sy) := p in sx <> 0 /\ sy <> 0 /\ gaussian_ctor (mx, my) (sx, sy) = Ok g) ps t.
(** The coefficient of mode [k] of the density [ps], normalised over the lattice, seen from the corner (ox, oy). *)
Definition target_coeff (ps : list (R * R * R * R)) (ox oy lx ly r : R) (nx ny : nat) (k : Z * Z) : R :=
  let pts := lattice nx ny r in
  let phi p := bumps ps (fst p + ox) (snd p + oy) in
  rsum (map (fun p => mode lx ly k (fst p) (snd p) * phi p) pts) / rsum (map phi pts).
(** The controller works with the coefficients of [ps] over the rectangle of [g]. *)
Definition tracks (e : ec R) (ps : list (R * R * R * R)) (g : grid R) : Prop :=
  let lx := g_xmax g - g_xmin g in
  let ly := g_ymax g - g_ymin g in
  let r := ec_resolution e in
  bs_lx (ec_basis e) = lx /\ bs_ly (ec_basis e) = ly /\ ec_map_pos e = (g_xmin g, g_ymin g) /\
  exists nx ny cs, Rabs (lx - INR nx * r) <= r / 2 /\ Rabs (ly - INR ny * r) <= r / 2 /\
    ec_phik e = Some cs /\ length cs = length (bs_k (ec_basis e)) /\
    forall i k, nth_error (bs_k (ec_basis e)) i = Some k ->
      nth_error cs i = Some (target_coeff ps (g_xmin g) (g_ymin g) lx ly r (S nx) (S ny) k).

(** A control axis: ordered limits, and a positive weight [r] whose inverse is [ri] unless the limits coincide. *)
Definition weighted (r ri lo hi : R) : Prop := lo <= hi /\ (0 < r /\ ri = / r \/ lo = hi).
(** The limits and inverse weights of a controller, for the weights [r]. *)
Definition tuned (e : ec R) (r : vec3 R) : Prop := exists ri : vec3 R, ec_Rinv e = diag (v0 ri) (v1 ri) (v2 ri) /\
  weighted (v0 r) (v0 ri) (v0 (ec_umin e)) (v0 (ec_umax e)) /\ weighted (v1 r) (v1 ri) (v1 (ec_umin e)) (v1 (ec_umax e)) /\
  weighted (v2 r) (v2 ri) (v2 (ec_umin e)) (v2 (ec_umax e)).
(** The two kinds of controllers built by the nodes. *)
Definition node_model (e : ec R) : Prop :=
  ec_model e = omni_plant \/ (ec_model e = cart_plant /\ v1 (ec_umin e) = 0 /\ v1 (ec_umax e) = 0).
Definition limits (e : ec R) : Prop := v0 (ec_umin e) <= v0 (ec_umax e) /\ v1 (ec_umin e) <= v1 (ec_umax e) /\ v2 (ec_umin e) <= v2 (ec_umax e).
(** A state seen from the corner of the map; its position. *)
Definition framed (g : grid R) (p : vec3 R) : vec3 R := V3 (v0 p - g_xmin g) (v1 p - g_ymin g) (v2 p).
Definition at2 (p : vec3 R) : R * R := (v0 p, v1 p).
(** The past states a call works with: all stored ones, in the order they were stored, if they fit in a batch, otherwise those
    with the numbers drawn. *)
Definition recalls (b : buffer R) (draws : list Z) (past : list (vec3 R)) : Prop :=
  exists ks, (lenZ (b_mem b) <= b_batch b -> ks = map Z.of_nat (seq 0 (length (b_mem b))))%Z /\
    (b_batch b < lenZ (b_mem b) -> b_mem b <> [] -> ks = map u32 draws)%Z /\
    Forall2 (fun k p => mem_at (b_mem b) k = Ok (to_col p)) ks past.
