(** Reference notions for distances in binary64 arithmetic. *)
From Coq Require Import Reals.
From Flocq Require Import Core.Raux Core.Zaux IEEE754.BinarySingleNaN.
From Verif Require Import Num Float64.
Local Open Scope R_scope.

(** The Euclidean distance of two points. *)
Definition euclid (x0 y0 x1 y1 : b64) : R := sqrt ((B2R x1 - B2R x0) ^ 2 + (B2R y1 - B2R y0) ^ 2).
