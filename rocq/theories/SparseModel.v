(** * Sparse matrices as lists of stored entries per row.
    This is the observable content of a scipy CSR matrix: for each row the
    stored (column, value) pairs in storage order; explicit zeros and repeated
    columns are representable.  Column indices are not checked here; [swf]
    says they are in range. *)
From Coq Require Import List ZArith Arith Bool.
From Verif Require Import Base.
Import ListNotations.

Notation srow := (list (nat * Z)) (only parsing).

Record smat := mkS { srows : list srow; scols : nat }.

Definition nrows (m : smat) : nat := length (srows m).

(** Dense value at column [c] of a row: scipy sums repeated coordinates. *)
Definition sget (r : srow) (c : nat) : Z :=
  sumZ (map snd (filter (fun e => fst e =? c) r)).

(** Dense value at (i,j); zero outside. *)
Definition mget (m : smat) (i j : nat) : Z :=
  match nth_error (srows m) i with Some r => sget r j | None => 0%Z end.

Definition swf (m : smat) : Prop :=
  Forall (Forall (fun e => fst e < scols m)) (srows m).

(** [M[order, :]] - scipy row fancy indexing. *)
Definition select_rows (order : list nat) (m : smat) : res smat :=
  do rs <- select order (srows m); Ok (mkS rs (scols m)).

(** Positions of column [c] in [order]. *)
Definition positions (order : list nat) (c : nat) : list nat :=
  where_ (fun o => o =? c) order.

(** One row of [M[:, order]]: scipy's csr_column_index copies every stored entry
    once per position of its column in [order]. *)
Definition select_cols_row (order : list nat) (r : srow) : srow :=
  flat_map (fun e => map (fun j => (j, snd e)) (positions order (fst e))) r.

(** [M[:, order]] - scipy raises IndexError for a column out of range. *)
Definition select_cols (order : list nat) (m : smat) : res smat :=
  if forallb (fun j => j <? scols m) order
  then Ok (mkS (map (select_cols_row order) (srows m)) (length order))
  else Raise IndexError.

(** Row sums and counts, [M.sum(axis=1)] and [M.astype(bool).sum(axis=1)]. *)
Definition row_sum (r : srow) : Z := sumZ (map snd r).
Definition row_nnz (r : srow) : nat := length (filter (fun e => negb (snd e =? 0)%Z) r).
