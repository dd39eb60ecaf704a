(** * Model of the operands of the sparse element-wise operations
    (util/sparse_elementwise.py lines 130-375, util/se_fast.pyx lines 250-690): number
    types, shapes and the memory that is read; and of the dictionary made for gensim
    (model/common.py lines 242-253).

    Simplified: the operations without [out], over all rows (ranges and [out] are in
    VecModel); dense matrices are stored by rows, what the assertions of the operations
    ask for.  Numbers are reals: rounding and integer overflow are left out. *)
From Coq Require Import List Reals ZArith Arith Bool String DecimalString.
From Verif Require Import Base RealModel VecModel EstModel SparseModel.
Import ListNotations.
Open Scope nat_scope.

(** A dense matrix: number type, shape, and its memory. *)
Record dense := mkDense { d_type : dtype; d_rows : nat; d_cols : nat; d_mem : list R }.

(** Reading without bounds checks, se_fast.pyx lines 607-609: the address is worked out
    from the number of columns. *)
Definition peek (m : dense) (i j : nat) : res R := oob (d_mem m) (i * d_cols m + j).

(** dotProduct_f8, se_fast.pyx lines 610-626 (f4 631-646): as many terms as [B] has columns. *)
Definition dot_product (B C : dense) (r c : nat) : res R :=
  fold_left (fun acc i => do a <- acc; do x <- peek B r i; do y <- peek C i c; Ok (a + x * y)%R) (seq 0 (d_cols B)) (Ok 0%R).

(** What is done with a stored number and the product of row and column.  For the
    logarithm, lines 520-524: that of the smallest number if the product is not above it. *)
Inductive op := Product | Quotient | SafeLn.
Definition apply_op (tiny : dtype -> R) (o : op) (t : dtype) (a x : R) : R :=
  match o with
  | Product => (a * x)%R
  | Quotient => (a / x)%R
  | SafeLn => (a * (if rltb (tiny t) x then ln x else ln (tiny t)))%R
  end.

(** The loops of the compiled functions: an element that cannot be computed stops them. *)
Definition compiled (tiny : dtype -> R) (o : op) (t : dtype) (A : vcsr R) (B C : dense) : res (list R) :=
  do l <- full_kernel (fun r c a => do x <- dot_product B C r c; Ok (apply_op tiny o t a x)) A (map Ok (vdat A));
  mapM (fun x => x) l.

(** B.dot(C) in numpy and its elements at the places of [A], lines 245, 321-322. *)
Definition at_places (A : vcsr R) (B C : dense) : res (list R) :=
  if negb (d_cols B =? d_rows C) then Raise ValueError else
  let '(rows, cols) := csr_indices (vptr A) (vind A) in
  mapM (fun '(r, c) => if (r <? d_rows B) && (c <? d_cols C) then dot_product B C r c else Raise IndexError) (combine rows cols).

Definition is_int (t : dtype) : bool := match t with I32 | I64 => true | _ => false end.

(** The three functions, lines 130-165, 199-225 with 227-247, and 250-296 with 299-325;
    [a] is the number type of [A].  Typed memory views raise ValueError for arrays of
    another type; numpy's *= raises TypeError for a product of another kind than the array. *)
Definition sparse_op (tiny : dtype -> R) (o : op) (a : dtype) (A : vcsr R) (B C : dense) : res (list R) :=
  match a with
  | F32 | F64 =>
      if dtype_eqb (d_type B) a && dtype_eqb (d_type C) a then compiled tiny o a A B C else Raise ValueError
  | _ =>
      match o with
      | Quotient => Raise ValueError
      | Product =>
          do l <- at_places A B C;
          if is_int (d_type B) && is_int (d_type C) then Ok (map (fun '(x, y) => (x * y)%R) (combine (vdat A) l))
          else Raise TypeError
      | SafeLn =>
          if negb (dtype_eqb (d_type B) a && dtype_eqb (d_type C) a) then Raise ValueError else
          do _ <- at_places A B C;
          Raise TypeError (* the logarithms are not whole numbers *)
      end
  end.

(** ** gensim_dictionary, model/common.py lines 242-253, with gensim's
    Dictionary.from_corpus: the numbers of documents, of pairs and of occurrences, the
    number of documents of every word, and the tokens, str(i) for every index up to the
    largest one that occurs.  Counts are whole numbers. *)
Record dictionary := mkDict
  { num_docs : nat; num_nnz : nat; num_pos : Z; dfs : nat -> nat; token2id : list (string * nat) }.

Definition str (n : nat) : string := NilZero.string_of_uint (Nat.to_uint n).

(** Lines 249-251: the columns of the stored numbers that are not zero, with the number
    at the place, which adds up what is stored there. *)
Definition pairs (r : srow) : list (nat * Z) :=
  map (fun '(c, _) => (c, sget r c)) (filter (fun '(_, v) => negb (v =? 0)%Z) r).

Definition add_pair (s : (Z * (nat -> nat)) * option nat) (p : nat * Z) : (Z * (nat -> nat)) * option nat :=
  let '((pos, df), mx) := s in
  let '(w, f) := p in
  (((pos + f)%Z, fun v => if v =? w then df v + 1 else df v), Some (match mx with None => w | Some m => Nat.max w m end)).

Definition from_corpus (docs : list (list (nat * Z))) : dictionary :=
  let '((pos, df), mx) := fold_left (fun s d => fold_left add_pair d s) docs ((0%Z, fun _ => 0), None) in
  mkDict (List.length docs) (list_sum (map (@List.length _) docs)) pos df
         (map (fun i => (str i, i)) (seq 0 (match mx with None => 0 | Some m => m + 1 end))).

Definition gensim_dictionary (words : smat) : dictionary := from_corpus (map pairs (srows words)).

(** The topics of gensim's model have a column for every token (len(id2word)); what the
    wrapper's score then multiplies, model/sklearn/lda_cvb.py lines 906-914. *)
Definition topics_of (dct : dictionary) (K : nat) (t : dtype) (mem : list R) : dense :=
  mkDense t K (List.length (token2id dct)) mem.
