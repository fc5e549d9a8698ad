(** Reference notions for the Fourier basis and the target. *)
From Coq Require Import Reals ZArith List.
From Verif Require Import Outcome Num BasisModel.
Import ListNotations.
Local Open Scope R_scope.

(** Sum and mean of a list. *)
Definition rsum (l : list R) : R := fold_right Rplus 0 l.
Definition mean (l : list R) : R := rsum l / INR (length l).
(** The cosine mode with wave numbers (k1, k2) on a lx x ly rectangle. *)
Definition mode (lx ly : R) (k : Z * Z) (x y : R) : R :=
  cos (IZR (fst k) * PI * x / lx) * cos (IZR (snd k) * PI * y / ly).
(** Squared length of a wave number. *)
Definition norm2 (k : Z * Z) : Z := (fst k * fst k + snd k * snd k)%Z.
(** Exponent and value of an axis-parallel Gaussian bump with standard deviations sx, sy. *)
Definition bump (mx my sx sy x y : R) : R :=
  exp (- ((x - mx) * (x - mx) / (sx * sx) + (y - my) * (y - my) / (sy * sy)) / 2).
(** Operations on the target list. *)
Inductive top (T : Type) : Type := TAdd (g : gaussian T) | TDel (idx : Z).
Arguments TAdd {T} g. Arguments TDel {T} idx.
Definition run_top {T} (t : target T) (o : top T) : res (target T) :=
  match o with TAdd g => Ok (addGaussian t g) | TDel k => deleteGaussian t k end.
Fixpoint run_tops {T} (t : target T) (os : list (top T)) : res (target T) :=
  match os with [] => Ok t | o :: os' => let* t' := run_top t o in run_tops t' os' end.
(** [t'] is what the operation should make of [t]; deletions are valid. *)
Definition top_spec {T} (t : target T) (o : top T) (t' : target T) : Prop :=
  match o with
  | TAdd g => t' = t ++ [g]
  | TDel k => exists l1 g l2, t = l1 ++ g :: l2 /\ Z.of_nat (length l1) = k /\ t' = l1 ++ l2
  end.
Inductive tops_spec {T} : target T -> list (top T) -> target T -> Prop :=
| ts_nil t : tops_spec t [] t
| ts_cons t o t1 os t2 : top_spec t o t1 -> tops_spec t1 os t2 -> tops_spec t (o :: os) t2.
