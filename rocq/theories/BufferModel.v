(** Model of buffer.hpp / buffer.cpp.  Definitions only. *)
From Verif Require Import Outcome.
Local Open Scope Z_scope.

Section Buffer.
Context {T : Type}.

(** arma::vec as a list of elements; arma::mat as its number of rows and its columns. *)
Record amat := mkMat { m_rows : Z; m_cols : list (list T) }.

(** buffer.hpp:74-76: data members.  The unordered_map is an association list; its iteration order
    is never observed by the code. *)
Record buffer := mkBuffer { b_size : Z; b_batch : Z; b_mem : list (Z * list T) }.

(** buffer.cpp:48-51 *)
Definition buffer_ctor (size batch : Z) : buffer := mkBuffer size batch [].

(** std::unordered_map::at *)
Fixpoint mem_at (m : list (Z * list T)) (k : Z) : res (list T) :=
  match m with
  | [] => Throw EOutOfRange
  | (k', v) :: m' => if k' =? k then Ok v else mem_at m' k
  end.
(** std::unordered_map::emplace: does nothing if the key is present. *)
Definition mem_emplace (m : list (Z * list T)) (k : Z) (v : list T) : list (Z * list T) :=
  match mem_at m k with Ok _ => m | _ => m ++ [(k, v)] end.

(** buffer.cpp:53-62.  The key is memory_.size() converted to unsigned int. *)
Definition append (b : buffer) (x : list T) : buffer :=
  if lenZ (b_mem b) <? b_size b
  then mkBuffer (b_size b) (b_batch b) (mem_emplace (b_mem b) (u32 (lenZ (b_mem b))) x)
  else b.

(** [xt_total.col(i) = v] on a matrix of [rows] rows: Armadillo checks the length. *)
Definition check_col (rows : Z) (v : list T) : res (list T) :=
  if lenZ v =? rows then Ok v else Throw EArma.

(** buffer.cpp:80-84 and 98-102: the loop storing columns found under the given keys. *)
Fixpoint fetch (m : list (Z * list T)) (rows : Z) (keys : list Z) : res (list (list T)) :=
  match keys with
  | [] => Ok []
  | k :: ks =>
      let* v := mem_at m k in
      let* v := check_col rows v in
      let* vs := fetch m rows ks in
      Ok (v :: vs)
  end.

(** [xt_total.cols(n, n + xt.n_cols - 1) = xt]: the range must not be empty. *)
Definition copy_tail (cols : list (list T)) (xt : amat) : res amat :=
  match m_cols xt with
  | [] => Throw EArma
  | _ => Ok (mkMat (m_rows xt) (cols ++ m_cols xt))
  end.

(** 0, 1, ..., n-1 *)
Definition zseq (n : nat) : list Z := map Z.of_nat (seq 0 n).

(** buffer.cpp:64-111.  [draws] is what arma::randi returns (batch_size_ numbers, each in
    [0, size-1]); distr_param takes ints, and randi throws when the interval is empty. *)
Definition sampleMemory (b : buffer) (draws : list Z) (xt : amat) : res amat :=
  match b_mem b with
  | [] => Ok xt
  | _ =>
      if lenZ (b_mem b) <=? b_batch b then
        let* cs := fetch (b_mem b) (m_rows xt) (zseq (length (b_mem b))) in
        copy_tail cs xt
      else
        if s32 (lenZ (b_mem b) - 1) <? 0 then Throw EArma else
        let* cs := fetch (b_mem b) (m_rows xt) (map u32 draws) in
        copy_tail cs xt
  end.
End Buffer.
Arguments buffer T : clear implicits.
Arguments amat T : clear implicits.
