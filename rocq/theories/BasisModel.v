(** Model of basis.hpp / basis.cpp and target.hpp / target.cpp.  Definitions only. *)
From Verif Require Import Outcome Num BufferModel.
Local Open Scope Z_scope.

Section Basis.
Context {T : Type} {NT : Num T}.

(** An arma::vec is the list of its elements, the sum of its elements is accumulated left to right. *)
Definition vsum (l : list T) : T := fold_left nadd l n0.
(** The first two elements of a column. *)
Local Notation point := (T * T)%type.

(** basis.hpp:103-107: the data members; total_basis_ is the length of the lists. *)
Record basis := mkBasis { bs_lx : T; bs_ly : T; bs_lam : list T; bs_k : list (Z * Z) }.

(** basis.cpp:57-66: the columns of k_ *)
Definition basis_numbers (n : nat) : list (Z * Z) :=
  flat_map (fun i => map (fun j => (j, i)) (zseq n)) (zseq n).
(** basis.cpp:71-74 *)
Definition weight (k : Z * Z) : T :=
  (n1 / npow (n1 + nsqrt (nofZ (fst k * fst k + snd k * snd k))) (lit 3 2))%num.

(** basis.cpp:48-77.  total_basis_ wraps at 2^32, which makes k_(0, col) fail its bounds check, and
    the column counter is an int, which overflows at 2^31 columns. *)
Definition basis_ctor (lx ly : T) (num_basis : Z) : res basis :=
  let total := num_basis * num_basis in
  if total <? two31 then
    let k := basis_numbers (Z.to_nat num_basis) in
    Ok (mkBasis lx ly (map weight k) k)
  else if (two32 <=? total) && (u32 total <? two31) then Throw EArma
  else UB USignedOverflow.

(** basis.cpp:84-85 *)
Definition basis_fun (bs : basis) (x : point) (k : Z * Z) : T :=
  (ncos (nofZ (fst k) * (npi / bs_lx bs) * fst x) * ncos (nofZ (snd k) * (npi / bs_ly bs) * snd x))%num.
(** basis.cpp:79-89 *)
Definition fourierBasis (bs : basis) (x : point) : list T := map (basis_fun bs x) (bs_k bs).

(** basis.cpp:99-103 *)
Definition basis_grad (bs : basis) (x : point) (k : Z * Z) : T * T :=
  let k1 := (nofZ (fst k) * (npi / bs_lx bs))%num in
  let k2 := (nofZ (snd k) * (npi / bs_ly bs))%num in
  (- k1 * nsin (k1 * fst x) * ncos (k2 * snd x), - k2 * ncos (k1 * fst x) * nsin (k2 * snd x))%num.
(** basis.cpp:91-107: the columns of the 2 x total_basis_ matrix *)
Definition gradFourierBasis (bs : basis) (x : point) : list (T * T) := map (basis_grad bs x) (bs_k bs).

(** sum(fk_mat, 1): the columns added to a zero vector of [n] elements, left to right *)
Definition row_sum (n : nat) (cols : list (list T)) : list T :=
  fold_left (fun acc c => map (fun p => (fst p + snd p)%num) (combine acc c)) cols (repeat n0 n).

(** basis.cpp:109-120; the trajectory is the list of the first two rows of xt *)
Definition trajCoeff (bs : basis) (xt : list point) : list T :=
  map (fun s => n1 / nofZ (lenZ xt) * s)%num (row_sum (length (bs_k bs)) (map (fourierBasis bs) xt)).

(** basis.cpp:122-133; phi_vals(i) is bounds checked *)
Definition spatialCoeff (bs : basis) (phi_vals : list T) (phi_grid : list point) : res (list T) :=
  if lenZ phi_vals <? lenZ phi_grid then Throw EArma else
  Ok (row_sum (length (bs_k bs))
        (map (fun p => map (fun f => f * snd p)%num (fourierBasis bs (fst p))) (combine phi_grid phi_vals))).

(** target.hpp:104-106.  The covariance is diagonal; its inverse is kept with the zeros outside of the
    diagonal, which take part in the product. *)
Record gaussian := mkGaussian { ga_mu : point; ga_cov : point; ga_inv : point }.

(** target.hpp:68-71.  arma::inv of a diagonal matrix: the reciprocals, or std::runtime_error if
    singular. *)
Definition gaussian_ctor (mu sigmas : point) : res gaussian :=
  let cov := (fst sigmas * fst sigmas, snd sigmas * snd sigmas)%num in
  if ((fst cov <=? n0) && (n0 <=? fst cov))%num || ((snd cov <=? n0) && (n0 <=? snd cov))%num then Throw EArma
  else Ok (mkGaussian mu cov (n1 / fst cov, n1 / snd cov)%num).

(** exp(-0.5 * dot(diff.t() * cov_inv, diff)), target.hpp:81, 101 *)
Definition gauss_exp (g : gaussian) (d : point) : T :=
  let r0 := (fst d * fst (ga_inv g) + snd d * n0)%num in
  let r1 := (fst d * n0 + snd d * snd (ga_inv g))%num in
  nexp (- lit 1 2 * (r0 * fst d + r1 * snd d))%num.
(** target.hpp:78-82 *)
Definition gauss_at (g : gaussian) (pt : point) : T :=
  gauss_exp g (fst pt - fst (ga_mu g), snd pt - snd (ga_mu g))%num.
(** target.hpp:91-102 *)
Definition gauss_trans (g : gaussian) (pt trans : point) : T :=
  gauss_exp g (fst pt - (fst (ga_mu g) - fst trans), snd pt - (snd (ga_mu g) - snd trans))%num.

(** target.hpp:160; target.cpp:48-56 *)
Definition target := list gaussian.
(** target.cpp:58-61 *)
Definition addGaussian (t : target) (g : gaussian) : target := t ++ [g].
(** std::vector::erase at an iterator: undefined unless the iterator is dereferenceable *)
Fixpoint erase (t : target) (k : nat) : res target :=
  match t, k with
  | [], _ => UB UIterator
  | _ :: t', O => Ok t'
  | a :: t', S k' => let* t' := erase t' k' in Ok (a :: t')
  end.
(** target.cpp:63-66 *)
Definition deleteGaussian (t : target) (idx : Z) : res target := erase t (Z.to_nat idx).
(** target.cpp:68-76 *)
Definition evaluate (t : target) (pt trans : point) : T :=
  fold_left (fun val g => val + gauss_trans g pt trans)%num t n0.
(** target.cpp:78-89 *)
Definition fill (t : target) (trans : point) (phi_grid : list point) : list T :=
  let phi_vals := map (fun pt => evaluate t pt trans) phi_grid in
  let s := vsum phi_vals in
  map (fun v => v / s)%num phi_vals.

(** The fields of a marker that depend on the target (target.cpp:101-107). *)
Record marker := mkMarker { mk_id : Z; mk_x : T; mk_y : T; mk_sx : T; mk_sy : T }.
(** arma::eig_sym of a diagonal matrix: the diagonal in ascending order *)
Definition eig_diag (c : point) : point := if (snd c <? fst c)%num then (snd c, fst c) else c.
(** target.cpp:96-116.  The unsigned index is stored in an int32 field. *)
Definition marker_of (ig : Z * gaussian) : marker :=
  let e := eig_diag (ga_cov (snd ig)) in
  mkMarker (s32 (fst ig)) (fst (ga_mu (snd ig))) (snd (ga_mu (snd ig))) (n2 * fst e)%num (n2 * snd e)%num.
(** target.cpp:91-120 *)
Definition markers (t : target) : list marker := map marker_of (combine (zseq (length t)) t).

End Basis.
Arguments basis T : clear implicits.
Arguments gaussian T : clear implicits.
Arguments marker T : clear implicits.
Arguments target T : clear implicits.
Notation point T := (T * T)%type (only parsing).
