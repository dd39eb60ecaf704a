(** * Model of class DataSet, /repo/sidetopics/model/common.py.
    In-place methods return the object's state after the call together with
    the result, so that the state left behind by an exception is visible. *)
From Coq Require Import List ZArith QArith Arith Bool.
From Coq Require String Ascii.
From Verif Require Import Base SparseModel SplitModel.
Import ListNotations.
Open Scope nat_scope.
Notation string := String.string.
Notation ascii := Ascii.ascii.

(** doc_categories: absent, a Python list (what from_files builds, lines
    104-114), or a numpy array.  Only the last can be indexed by a list. *)
Inductive categories :=
| NoCats
| PyList (l : list (list string))
| NpArr (l : list (list string)).

(** word_dict: the same three cases (line 169 needs the third). *)
Inductive wdict :=
| NoDict
| DictList (l : list string)
| DictArr (l : list string).

Record fmat := mkF { frows : list (list Q); fcols : nat }.

Record dataset := mkDS {
  words : smat;
  feats : option fmat;
  links : option smat;
  dict  : wdict;
  cats  : categories;
  order : list nat
}.

Definition doc_count (ds : dataset) : nat := nrows (words ds).

Definition cats_len (c : categories) : option nat :=
  match c with NoCats => None | PyList l => Some (length l) | NpArr l => Some (length l) end.

Definition opt_len_ok (n : option nat) (d : nat) : bool :=
  match n with None => true | Some k => k =? d end.

(** DataSet.__init__, lines 14-67.  Simplification: all matrices are CSR, so the
    type assertions of lines 38-39 hold (see [construct_storage] below for
    them); log messages are dropped. *)
Definition construct (w : smat) (f : option fmat) (l : option smat) (d : wdict)
           (c : categories) (o : option (list nat)) (limit : nat) : res dataset :=
  do _ <- assert_ (0 <? nrows w);
  do _ <- assert_ (opt_len_ok (option_map (fun f => length (frows f)) f) (nrows w));
  do _ <- assert_ (opt_len_ok (option_map nrows l) (nrows w));
  do _ <- assert_ (opt_len_ok (cats_len c) (nrows w));
  let num_docs := nrows w in
  let limited := (0 <? limit) && (limit <? num_docs) in
  let o1 := if limited
            then Some (match o with None => seq 0 limit | Some o => firstn limit o end)
            else o in
  let n1 := if limited then limit else num_docs in
  let o2 := match o1 with Some o => o | None => seq 0 n1 end in
  Ok (mkDS w f l d c o2).

(** Lines 37-48: which storage the words and links end up in.  [true] is CSR.
    auto_convert_to_sparse only switches the assertions off; the conversion
    itself happens in the debug branch alone. *)
Definition construct_storage (words_csr : bool) (links_csr : option bool)
           (debug auto_convert : bool) : res (bool * option bool) :=
  if negb debug then
    do _ <- assert_ (words_csr || auto_convert);
    do _ <- assert_ (match links_csr with None => true | Some b => b || auto_convert end);
    Ok (words_csr, links_csr)
  else
    Ok (true, match links_csr with None => None | Some _ => Some true end).

(** copy_with_changes, lines 134-142. *)
Definition copy_with_changes (ds : dataset) (w : option smat) (f : option fmat)
           (l : option smat) (d : option wdict) (c : option categories) : res dataset :=
  construct (match w with None => words ds | Some w => w end)
            (match f with None => feats ds | Some _ => f end)
            (match l with None => links ds | Some _ => l end)
            (match d with None => dict ds | Some d => d end)
            (match c with None => cats ds | Some c => c end)
            (Some (order ds)) 0.

(** copy, lines 144-162.  csr_matrix.copy takes no keyword [deep]. *)
Definition copy (ds : dataset) (deep : bool) : res dataset :=
  if deep then Raise TypeError
  else construct (words ds) (feats ds) (links ds) (dict ds) (cats ds) (Some (order ds)) 0.

(** words_with_min_freq, lines 164-178. *)
Definition docs_per_word (w : smat) (c : nat) : nat :=
  sumN (map (fun r => length (filter (fun e => (fst e =? c) && negb (snd e =? 0)%Z) r)) (srows w)).

Definition retained_words (w : smat) (min_docs : nat) : list nat :=
  where_ (fun n => min_docs <=? n) (map (docs_per_word w) (seq 0 (scols w))).

Definition words_with_min_freq (ds : dataset) (min_docs : nat) : res dataset :=
  let ids := retained_words (words ds) min_docs in
  do w <- select_cols ids (words ds);
  match dict ds with
  | NoDict | DictList _ => Raise TypeError
  | DictArr l =>
    do l' <- select ids l;
    construct w (feats ds) (links ds) (DictArr l') (cats ds) (Some (order ds)) 0
  end.

(** _reorder_link_matrix, lines 746-758. *)
Definition reorder_link_matrix (m : option smat) (o : list nat) : res (option smat) :=
  match m with
  | None => Ok None
  | Some m =>
    if nrows m =? scols m
    then do r <- select_rows o m; do rc <- select_cols o r; Ok (Some rc)
    else do r <- select_rows o m; Ok (Some r)
  end.

Definition select_frows (o : list nat) (f : fmat) : res fmat :=
  do rs <- select o (frows f); Ok (mkF rs (fcols f)).

Definition select_feats (o : list nat) (f : option fmat) : res (option fmat) :=
  match f with None => Ok None | Some f => do g <- select_frows o f; Ok (Some g) end.

Definition set_words ds w := mkDS w (feats ds) (links ds) (dict ds) (cats ds) (order ds).
Definition set_feats ds f := mkDS (words ds) f (links ds) (dict ds) (cats ds) (order ds).
Definition set_links ds l := mkDS (words ds) (feats ds) l (dict ds) (cats ds) (order ds).
Definition set_cats ds c := mkDS (words ds) (feats ds) (links ds) (dict ds) c (order ds).
Definition set_order ds o := mkDS (words ds) (feats ds) (links ds) (dict ds) (cats ds) o.

(** [doc_categories[list(order)]] of line 304. *)
Definition index_cats (o : list nat) (c : categories) : res categories :=
  match c with
  | NoCats | PyList _ => Raise TypeError
  | NpArr l => do l' <- select o l; Ok (NpArr l')
  end.

(** _reorder, lines 295-306, four assignments in sequence. *)
Definition reorder (ds : dataset) (o : list nat) : dataset * res unit :=
  match select_rows o (words ds) with
  | Raise e => (ds, Raise e)
  | Ok w =>
    let ds1 := set_words ds w in
    match index_cats o (cats ds1) with
    | Raise e => (ds1, Raise e)
    | Ok c =>
      let ds2 := set_cats ds1 c in
      match select_feats o (feats ds2) with
      | Raise e => (ds2, Raise e)
      | Ok f =>
        let ds3 := set_feats ds2 f in
        match reorder_link_matrix (links ds3) o with
        | Raise e => (ds3, Raise e)
        | Ok l => (set_links ds3 l, Ok tt)
        end
      end
    end
  end.

(** from_files, lines 126-132 (after the pickles are loaded). *)
Definition from_loaded (w : smat) (f : option fmat) (l : option smat) (d : wdict)
           (c : categories) (o : option (list nat)) (limit : nat) : res dataset :=
  do ds <- construct w f l d c None limit;
  match o with
  | None => Ok ds
  | Some o => match reorder ds o with
              | (ds', Ok _) => Ok ds'
              | (_, Raise e) => Raise e
              end
  end.

(** from_files, lines 104-114: grouping the flat list of category tokens.
    Characters are abstract except for the newline test. *)
Definition newline : ascii := Ascii.ascii_of_nat 10.

Fixpoint ends_with_nl (s : string) : bool :=
  match s with
  | String.EmptyString => false
  | String.String a String.EmptyString => Ascii.eqb a newline
  | String.String _ r => ends_with_nl r
  end.

Fixpoint drop_last (s : string) : string :=
  match s with
  | String.EmptyString => String.EmptyString
  | String.String _ String.EmptyString => String.EmptyString
  | String.String a r => String.String a (drop_last r)
  end.

Definition group_categories (flat : list string) : list (list string) :=
  let '(doc_categories, current) :=
    fold_left (fun '(dc, cur) cat =>
                 if ends_with_nl cat then (dc ++ [cur ++ [drop_last cat]], [])
                 else (dc, cur ++ [cat]))
              flat ([], []) in
  if 0 <? length current then doc_categories ++ [current] else doc_categories.

(** add_intercept_to_feats_if_required, lines 276-292, over exact rationals.
    (1 - 1E-30) is the double 1.0.  A matrix without columns makes max() raise
    ValueError. Returns None (null), or Some changed. *)
Definition sumQ (l : list Q) : Q := fold_right Qplus 0%Q l.

Definition col_sum (f : fmat) (c : nat) : Q := sumQ (map (fun r => nth c r 0%Q) (frows f)).

Definition col_mean (f : fmat) (c : nat) : Q :=
  (col_sum f c / inject_Z (Z.of_nat (length (frows f))))%Q.

Definition Qlt_bool (a b : Q) : bool := negb (Qle_bool b a).

Definition add_intercept (ds : dataset) : dataset * res (option bool) :=
  match feats ds with
  | None => (ds, Ok None)
  | Some f =>
    if fcols f =? 0 then (ds, Raise ValueError)
    else if forallb (fun c => Qlt_bool (col_mean f c) 1) (seq 0 (fcols f))
    then (set_feats ds (Some (mkF (map (fun r => r ++ [1%Q]) (frows f)) (S (fcols f)))),
          Ok (Some true))
    else (ds, Ok (Some false))
  end.

(** Transpose and sum of sparse matrices as used on line 315.  scipy's CSR
    addition returns rows in canonical form: columns in increasing order, one
    entry each, zero sums dropped. *)
Definition column_entries (m : smat) (c : nat) : srow :=
  concat (map (fun '(i, r) => map (fun e => (i, snd e)) (filter (fun e => fst e =? c) r))
              (combine (seq 0 (nrows m)) (srows m))).

Definition transpose (m : smat) : smat :=
  mkS (map (column_entries m) (seq 0 (scols m))) (nrows m).

Definition canon_row (cols : nat) (r : srow) : srow :=
  filter (fun e => negb (snd e =? 0)%Z) (map (fun c => (c, sget r c)) (seq 0 cols)).

Definition madd (a b : smat) : res smat :=
  if (nrows a =? nrows b) && (scols a =? scols b)
  then Ok (mkS (map (fun '(x, y) => canon_row (scols a) (x ++ y)) (combine (srows a) (srows b)))
               (scols a))
  else Raise ValueError.

(** convert_to_undirected_graph, lines 309-315. *)
Definition convert_to_undirected (ds : dataset) : dataset * res unit :=
  match links ds with
  | None => (ds, Raise AssertionError)
  | Some m => match madd m (transpose m) with
              | Ok s => (set_links ds (Some s), Ok tt)
              | Raise e => (ds, Raise e)
              end
  end.

(** convert_to_binary_link_matrix, lines 318-323: every stored value becomes 1. *)
Definition fill_ones (m : smat) : smat :=
  mkS (map (map (fun e => (fst e, 1%Z))) (srows m)) (scols m).

Definition convert_to_binary (ds : dataset) : dataset * res unit :=
  match links ds with
  | None => (ds, Raise AssertionError)
  | Some m => (set_links ds (Some (fill_ones m)), Ok tt)
  end.

(** prune_and_shuffle, lines 326-377.  [shuffle] is RandomState(seed).shuffle.
    Thresholds are rationals (the default word threshold is 0.5).
    One-document corpora: np.squeeze yields a 0-d array, whose len() in the
    message of line 348 raises TypeError after _order was assigned.
    Empty corpora: min() of an empty array raises ValueError. *)
Definition ge_q (n : Z) (q : Q) : bool := Qle_bool q (inject_Z n).

Definition good_rows (w : smat) (min_unique : Q) : list nat :=
  where_ (fun r => ge_q (Z.of_nat (row_nnz r)) min_unique) (srows w).

Definition sufficient_docs (l : smat) (min_link : Q) : list nat :=
  where_ (fun r => ge_q (row_sum r) min_link) (srows l).

(** The while loop of lines 364-371; [Raise OtherError] means out of fuel. *)
Fixpoint link_loop (fuel : nat) (min_link : Q) (ds : dataset) : dataset * res unit :=
  match links ds with
  | None => (ds, Ok tt)
  | Some l =>
    let suff := sufficient_docs l min_link in
    if length suff <? nrows l then
      match fuel with
      | O => (ds, Raise OtherError)
      | S fuel' =>
        match reorder ds suff with
        | (ds1, Raise e) => (ds1, Raise e)
        | (ds1, Ok _) =>
          match select suff (order ds1) with
          | Raise e => (ds1, Raise e)
          | Ok o => link_loop fuel' min_link (set_order ds1 o)
          end
        end
      end
    else (ds, Ok tt)
  end.

Definition prune_and_shuffle (shuffle : list nat -> list nat) (min_unique min_link : Q)
           (ds : dataset) : dataset * res (list nat) :=
  let D := doc_count ds in
  if D =? 0 then (ds, Raise ValueError) else
  let good := good_rows (words ds) min_unique in
  let removed := length good <? D in
  if removed && (D =? 1) then (set_order ds good, Raise TypeError) else
  let ord := shuffle (if removed then good else seq 0 D) in
  match reorder (set_order ds ord) ord with
  | (ds1, Raise e) => (ds1, Raise e)
  | (ds1, Ok _) =>
    if Qeq_bool min_link 0 then (ds1, Ok (order ds1))
    else match links ds1 with
         | None => (ds1, Ok (order ds1))
         | Some _ => match link_loop (doc_count ds1) min_link ds1 with
                     | (ds2, Ok _) => (ds2, Ok (order ds2))
                     | (ds2, Raise e) => (ds2, Raise e)
                     end
         end
  end.

(** cross_valid_split, lines 406-437: one half, given its index range.
    Indices are reduced modulo the corpus size, hence non-negative. *)
Definition split_half (ds : dataset) (range : list Z) : res dataset :=
  let idx := map Z.to_nat range in
  do w <- select_rows idx (words ds);
  do f <- select_feats idx (feats ds);
  do l <- match links ds with
          | None => Ok None
          | Some m => do r <- select_rows idx m; Ok (Some r)
          end;
  do c <- match cats ds with NoCats => Ok NoCats | c => index_cats idx c end;
  do o <- select idx (order ds);
  construct w f l (dict ds) c (Some o) 0.

Definition cross_valid_split (ds : dataset) (fold folds : Z) : res (dataset * dataset) :=
  do (train_range, query_range) <-
     cross_valid_split_indices (Z.of_nat (doc_count ds)) fold folds;
  do train <- split_half ds train_range;
  do query <- split_half ds query_range;
  Ok (train, query).
