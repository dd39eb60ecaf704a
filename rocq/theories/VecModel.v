(** * Model of the vec-transpose functions (util/vectrans.py, util/vt_fast.pyx),
    csr_indices and the sparse element-wise kernels (util/sparse_elementwise.py,
    util/se_fast.pyx).  Element values are of an arbitrary type: the code only
    moves them or hands them to an arithmetic expression, which is an argument
    here. *)
From Coq Require Import List Arith Bool.
From Verif Require Import Base.
Import ListNotations.
Open Scope nat_scope.

(** A scipy CSR matrix: indptr, indices, data, number of columns.  C ints are
    unbounded naturals here. *)
Record vcsr (V : Type) := mkV { vptr : list nat; vind : list nat; vdat : list V; vcols : nat }.
Arguments mkV {V}. Arguments vptr {V}. Arguments vind {V}. Arguments vdat {V}. Arguments vcols {V}.
Definition vrows {V} (A : vcsr V) : nat := length (vptr A) - 1.

(** Reading and writing a buffer without bounds checks: outside it anything
    may happen. *)
Definition oob {A} (l : list A) (i : nat) : res A :=
  match nth_error l i with Some a => Ok a | None => Raise MemoryOOB end.

Fixpoint set_at {A} (l : list A) (i : nat) (a : A) : list A :=
  match l, i with
  | [], _ => []
  | _ :: r, 0 => a :: r
  | x :: r, S j => x :: set_at r j a
  end.
Definition oob_set {A} (l : list A) (i : nat) (a : A) : res (list A) :=
  if i <? length l then Ok (set_at l i a) else Raise MemoryOOB.

(** ** sparse_vec_transpose_f8r, vt_fast.pyx lines 19-52 (f4r 93-126 and i4r
    56-89 have the same text; without the decorators a bad index there raises
    IndexError instead). *)

(** Lines 42-43.  Fuel: the row pointer has fewer positions than that. *)
Fixpoint advance (fuel : nat) (ptr : list nat) (row k : nat) : res nat :=
  match fuel with
  | 0 => Raise MemoryOOB
  | S f => do e <- oob ptr (row + 1);
           if e <=? k then advance f ptr (row + 1) k else Ok row
  end.

(** Lines 41-49: [inds] are the indices from position [k] on; result: the new
    row and column of each element. *)
Fixpoint vt_loop (ptr : list nat) (p : nat) (inds : list nat) (k oldRow : nat) : res (list (nat * nat)) :=
  match inds with
  | [] => Ok []
  | oldCol :: rest =>
    do r <- advance (length ptr) ptr oldRow k;
    do l <- vt_loop ptr p rest (k + 1) r;
    Ok ((oldCol * p + r mod p, r / p) :: l)
  end.

(** Coordinates with a value, and the shape. *)
Definition coo (V : Type) : Type := list (nat * nat * V).

(** ssp.coo_matrix(...).tocsr(): coordinates outside the shape raise; elements
    are grouped by row.  Simplification: scipy adds up elements with equal
    coordinates afterwards, here they stay side by side. *)
Definition tocsr {V} (rows cols : nat) (l : coo V) : res (vcsr V) :=
  if forallb (fun '(i, j, _) => (i <? rows) && (j <? cols)) l
  then let row r := filter (fun '(i, _, _) => i =? r) l in
       Ok (mkV (map (fun r => sumN (map (fun q => length (row q)) (seq 0 r))) (seq 0 (rows + 1)))
               (concat (map (fun r => map (fun '(_, j, _) => j) (row r)) (seq 0 rows)))
               (concat (map (fun r => map (fun '(_, _, v) => v) (row r)) (seq 0 rows)))
               cols)
  else Raise ValueError.

Definition sparse_vec_transpose {V} (A : vcsr V) (p : nat) : res (vcsr V) :=
  do rc <- vt_loop (vptr A) p (vind A) 0 0;
  let newRows := vcols A * p in
  let newCols := vrows A / p in
  tocsr newRows newCols (map (fun '((r, c), v) => (r, c, v)) (combine rc (vdat A))).

(** ** vec_transpose_f8r, vt_fast.pyx lines 131-167 (f4r 171-208 alike): dense
    input of [oldRows] x [oldCols], output buffer with undefined contents
    ([None]) written cell by cell, in row-major order without bounds checks. *)
Definition vec_transpose {V} (A : nat -> nat -> V) (oldRows oldCols p : nat) : res (list (list (option V))) :=
  let newRows := oldCols * p in
  let newCols := oldRows / p in
  let cells := list_prod (seq 0 oldRows) (seq 0 oldCols) in
  fold_left (fun out '(oldRow, oldCol) =>
     do out <- out;
     do row <- oob out (oldCol * p + oldRow mod p);
     do row' <- oob_set row (oldRow / p) (Some (A oldRow oldCol));
     oob_set out (oldCol * p + oldRow mod p) row')
    cells (Ok (repeat (repeat None newCols) newRows)).

(** ** sp_vec_trans_matrix, vectrans.py lines 139-166: the column of the single
    one in each row.  floor(r / cols) is exact here, a double in Python. *)
Definition vec_trans_indices (rows cols : nat) : list nat :=
  map (fun r => r / cols + (r mod cols) * rows) (seq 0 (rows * cols)).

(** ** csr_indices, sparse_elementwise.py lines 378-393 *)

(** rows[a : a + n] = [r] * n *)
Definition set_slice (l : list nat) (a n r : nat) : list nat :=
  firstn a l ++ repeat r n ++ skipn (a + n) l.

Fixpoint ci_loop (ptr : list nat) (r : nat) (rows : list nat) (total : nat) : list nat :=
  match ptr with
  | a :: (b :: _) as rest =>
    let elemCount := b - a in
    let rows' := if 0 <? elemCount then set_slice rows total elemCount r else rows in
    ci_loop rest (r + 1) rows' (total + elemCount)
  | _ => rows
  end.

Definition csr_indices (ptr ind : list nat) : list nat * list nat :=
  (ci_loop ptr 0 (repeat 0 (length ind)) 0, ind).

(** ** The kernels with a row range: sparseScalarQuotientOfDot_f8 (se_fast.pyx
    lines 250-292; f4 297-339) and sparseScalarProductOfSafeLnDot_f8 (lines
    486-530; f4 561-605).  [op B_row col a] is the expression assigned:
    a / dotProduct(B_row, col, B, C), respectively a * log of it. *)

(** Lines 284-288. *)
Fixpoint kelems {V W} (op : nat -> nat -> V -> W) (ind : list nat) (dat : list V) (B_row n i : nat) (out : list W)
  : res (nat * list W) :=
  match n with
  | 0 => Ok (i, out)
  | S n' => do col <- oob ind i;
            do a <- oob dat i;
            do out' <- oob_set out i (op B_row col a);
            kelems op ind dat B_row n' (i + 1) out'
  end.

(** Lines 280-290. *)
Fixpoint krows {V W} (op : nat -> nat -> V -> W) (A : vcsr V) (start : nat) (rows : list nat) (B_row i : nat) (out : list W)
  : res (list W) :=
  match rows with
  | [] => Ok out
  | A_row :: rest =>
    do e <- oob (vptr A) (A_row + 1);
    do s <- oob (vptr A) A_row;
    if start <=? A_row
    then do (i', out') <- kelems op (vind A) (vdat A) B_row (e - s) i out;
         krows op A start rest (B_row + 1) i' out'
    else krows op A start rest B_row i out
  end.

Definition range_kernel {V W} (op : nat -> nat -> V -> W) (A : vcsr V) (out : list W) (start end_ : nat) : res (list W) :=
  krows op A start (seq 0 end_) 0 0 out.

(** The kernels without a range: sparseScalarProductOfDot_f8 (lines 416-446; f4
    451-481), sparseScalarQuotientOfNormedDot_f8 (345-375; f4 380-410),
    sparseScalarProductOfSafeLnDot_f8_full (535-554). *)
Definition full_kernel {V W} (op : nat -> nat -> V -> W) (A : vcsr V) (out : list W) : res (list W) :=
  krows op A 0 (seq 0 (vrows A)) 0 0 out.

(** sparseScalarQuotientOfDot, sparse_elementwise.py lines 130-165, for double
    or float data: without [out] the result goes into a copy of A[start:end]. *)
Definition slice_ {A} (l : list A) (a b : nat) : list A := firstn (b - a) (skipn a l).
Definition quotient_of_dot {V} (op : nat -> nat -> V -> V) (A : vcsr V) (out : option (list V))
           (start end_ : option nat) : res (list V) :=
  let start := match start with None => 0 | Some s => s end in
  let end_ := match end_ with None => vrows A | Some e => e end in
  let out := match out with
             | None => slice_ (vdat A) (nth start (vptr A) 0) (nth end_ (vptr A) 0)
             | Some o => o
             end in
  range_kernel op A out start end_.

(** sparseScalarProductOfSafeLnDot, lines 250-296: as above, but for the full
    range in double precision a copy is filled (line 284) whatever [out] is.
    Result: the data returned, and the caller's [out] data afterwards. *)
Definition product_of_ln_dot {V} (op : nat -> nat -> V -> V) (double_ : bool) (A : vcsr V) (out : option (list V))
           (start end_ : option nat) : res (list V * option (list V)) :=
  let s := match start with None => 0 | Some s => s end in
  let e := match end_ with None => vrows A | Some e => e end in
  if (s =? 0) && (e =? vrows A) && double_
  then do r <- range_kernel op A (vdat A) 0 (vrows A); Ok (r, out)
  else do r <- quotient_of_dot op A out start end_;
       Ok (r, match out with None => None | Some _ => Some r end).

(** ** entropyOfDot.  The term for topic k, word t of document d is a function
    of the probability and of the number whose logarithm is taken:
    [term x y] stands for x * log(y).  [None] is an index error.
    entropyOfDot_f8, se_fast.pyx lines 145-191. *)
Definition mat (V : Type) : Type := list (list V).
Definition at_ {V} (M : mat V) (i j : nat) : res V := do r <- get_ M i; get_ r j.

Section Entropy.
Context {V : Type} (zero : V) (add mul div term : V -> V -> V).

Definition denom (topics : mat V) (d K : nat) : res V :=
  fold_left (fun acc k => do a <- acc; do x <- at_ topics d k; Ok (add a x)) (seq 0 K) (Ok zero).

Definition entropy_terms (log_arg : nat -> nat -> nat -> res V) (topics vocab : mat V) (D K T : nat) : res (list V) :=
  do ds <- mapM (fun d =>
     do den <- denom topics d K;
     do ks <- mapM (fun k => mapM (fun t =>
        do x <- at_ topics d k; do v <- at_ vocab k t; do y <- log_arg d k t;
        Ok (term (mul (div x den) v) (mul (div x den) y))) (seq 0 T)) (seq 0 K);
     Ok (concat ks)) (seq 0 D);
  Ok (concat ds).

Definition entropyOfDot_f8 (topics vocab : mat V) (D K T : nat) : res (list V) :=
  entropy_terms (fun _ k t => at_ vocab k t) topics vocab D K T.

(** entropyOfDot_py, sparse_elementwise.py lines 96-126: line 124 reads
    vocab[d,k] inside the logarithm. *)
Definition entropyOfDot_py (topics vocab : mat V) (D K T : nat) : res (list V) :=
  entropy_terms (fun d k _ => at_ vocab d k) topics vocab D K T.
End Entropy.
