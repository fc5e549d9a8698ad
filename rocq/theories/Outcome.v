(** Outcomes of C++ evaluations, and machine integers.
    Every model function that can fail in C++ returns a [res]. *)
From Coq Require Export ZArith List Bool Lia.
Export ListNotations.
Open Scope Z_scope.

(** Exceptions that the code (or the standard library / Armadillo under it) throws. *)
Inductive exn : Type :=
| EInvalidArgument          (* std::invalid_argument *)
| EOutOfRange               (* std::out_of_range, vector::at *)
| EArma                     (* std::logic_error from an Armadillo bounds/size check *)
| EXmlRpc.                  (* XmlRpc::XmlRpcException: a value of the wrong type *)

(** Kinds of undefined behaviour. *)
Inductive ubk : Type :=
| UFloatCast                (* floating to integer conversion out of range, or NaN *)
| USignedOverflow           (* signed integer overflow *)
| UDivZero                  (* integer division by zero *)
| UIterator                 (* vector::erase with an iterator outside the vector *)
| UUninit                   (* read of an element of a matrix that was never set *)
| UClamp.                   (* std::clamp with the upper limit below the lower one *)

Inductive res (A : Type) : Type :=
| Ok (a : A)
| Throw (e : exn)
| UB (k : ubk)
| Diverge.                  (* loop fuel exhausted: never equal to a normal result *)
Arguments Ok {A} a.
Arguments Throw {A} e.
Arguments UB {A} k.
Arguments Diverge {A}.

Definition bind {A B} (m : res A) (f : A -> res B) : res B :=
  match m with
  | Ok a => f a
  | Throw e => Throw e
  | UB k => UB k
  | Diverge => Diverge
  end.

Notation "'let*' x := m 'in' k" := (bind m (fun x => k))
  (at level 200, x name, m at level 100, k at level 200, right associativity).
Notation "'let*' ' p := m 'in' k" := (bind m (fun p => k))
  (at level 200, p strict pattern, m at level 100, k at level 200, right associativity).

Definition is_ok {A} (m : res A) : bool := match m with Ok _ => true | _ => false end.

(** [unsigned int] (32 bit): arithmetic modulo 2^32. *)
Definition two32 : Z := 4294967296.
Definition two31 : Z := 2147483648.
Definition u32 (z : Z) : Z := z mod two32.

(** Conversion of an unsigned value to [int] (two's complement, as gcc defines it). *)
Definition s32 (z : Z) : Z := if u32 z <? two31 then u32 z else u32 z - two32.

(** [int] (32 bit): overflow is undefined behaviour. *)
Definition int_ck (z : Z) : res Z :=
  if (- two31 <=? z) && (z <? two31) then Ok z else UB USignedOverflow.

(** List access by a Z index; [None] outside. *)
Definition nthZ {A} (l : list A) (z : Z) : option A :=
  if z <? 0 then None else nth_error l (Z.to_nat z).

(** Length of a list as a Z. *)
Definition lenZ {A} (l : list A) : Z := Z.of_nat (length l).
