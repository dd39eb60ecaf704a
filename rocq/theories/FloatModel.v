(** * Double-precision versions of computations that the other models do exactly:
    /repo/sidetopics/model/common.py lines 380-403 (fold sizes) and 469-476
    (document completion), /repo/sidetopics/model/evals.py lines 34-77 and 182-256.

    A double is a real number; every operation rounds its exact result to the nearest
    double, ties to even.  There is no largest double: the theorems are about numbers
    far below it. *)
From Coq Require Import List ZArith QArith Qreals Arith Bool Reals.
From Flocq Require Import Core.Core.
From Verif Require Import Base SparseModel DatasetModel PartModel SplitModel EvalModel.
Import ListNotations.
Open Scope nat_scope.

Definition dexp : Z -> Z := FLT_exp (-1074) 53.
Definition rd (x : R) : R := round radix2 dexp ZnearestE x.
Definition is_double (x : R) : Prop := generic_format radix2 dexp x.

(** ** Fold sizes, common.py lines 380-403: ceil(doc_count / num_folds), where the quotient of two
    Python integers is the double nearest to it. *)
Definition ceil_div_f (a b : Z) : Z := Zceil (rd (IZR a / IZR b)).

Definition cross_valid_split_indices_f (D test_fold_id num_folds : Z) : res (list Z * list Z) :=
  do _ <- assert_ (test_fold_id <? num_folds)%Z;
  do _ <- assert_ (1 <? num_folds)%Z;
  let query_size := ceil_div_f D num_folds in
  let train_size := (D - query_size)%Z in
  let start := (query_size * test_fold_id)%Z in
  let end_ := (start + query_size)%Z in
  let query_range := map (fun i => (i mod D)%Z) (zrange start end_) in
  let train_range := map (fun i => (i mod D)%Z) (zrange end_ (end_ + train_size)) in
  Ok (train_range, query_range).

(** ** Document completion, common.py lines 470-476, one stored count: the sum, the product and the
    difference are rounded; astype() of lines 475-476 drops fractions (there are none). *)
Definition complete_count_f (est_prop : R) (j : R) (dat : Z) : Z * Z :=
  let evl := rd (IZR dat + j) in
  let est := ZnearestE (rd (evl * est_prop)) in
  (est, Ztrunc (rd (IZR dat - IZR est))).

Fixpoint complete_row_f (est_prop : R) (jitter : nat -> R) (k : nat) (r : srow) : srow * srow :=
  match r with
  | [] => ([], [])
  | (c, v) :: r' =>
    let '(est, evl) := complete_count_f est_prop (jitter k) v in
    let '(a, b) := complete_row_f est_prop jitter (S k) r' in
    ((c, est) :: a, (c, evl) :: b)
  end.

Fixpoint complete_rows_from_f (est_prop : R) (jitter : nat -> R) (k : nat) (rs : list srow)
  : list srow * list srow :=
  match rs with
  | [] => ([], [])
  | r :: rs' =>
    let '(a, b) := complete_row_f est_prop jitter k r in
    let '(xs, ys) := complete_rows_from_f est_prop jitter (k + length r) rs' in
    (a :: xs, b :: ys)
  end.

(** common.py lines 440-499, as in PartModel. *)
Definition doc_completion_split_f (min_unique : Q) (jitter : nat -> R) (est_prop : R)
           (ds : dataset) : res (dataset * dataset) :=
  match feats ds with
  | Some _ => Ok (ds, ds)
  | None =>
    let '(tr, qu) := complete_rows_from_f est_prop jitter 0 (srows (words ds)) in
    let wt := mkS tr (scols (words ds)) in
    let wq := mkS qu (scols (words ds)) in
    let t_good := good_rows wt min_unique in
    let q_good := good_rows wq min_unique in
    let tq_good := filter (fun i => existsb (Nat.eqb i) q_good) t_good in
    if negb (Qle_bool min_unique 0) && negb (length tq_good =? nrows wt)
    then Raise TypeError
    else
      do a <- construct wt (feats ds) (links ds) (DatasetModel.dict ds) (cats ds) None 0;
      do b <- construct wq (feats ds) (links ds) (DatasetModel.dict ds) (cats ds) None 0;
      Ok (a, b)
  end.

(** ** Metrics, evals.py *)

(** s = 0.0; for x in l: s += x *)
Definition fsum (l : list R) : R := fold_left (fun s x => rd (s + x)%R) l 0%R.

(** Python's a / b on integers. *)
Definition fdiv (a b : nat) : res R :=
  if b =? 0 then Raise ZeroDivisionError else Ok (rd (INR a / INR b)).

(** Lines 231-243. *)
Definition prec_at_f (recv expt : list nat) (e : nat) : res R :=
  let m := find_pos e recv in
  let recv_set := firstn (m + 1) recv in
  fdiv (common recv_set expt) (length (pyset recv_set)).

(** Lines 216-250, for a document with links. *)
Definition average_prec_f (argsort : list Q -> list nat) (d : doc) : res R :=
  do ps <- mapM (prec_at_f (ranking argsort (snd d)) (fst d)) (fst d);
  Ok (rd (fsum ps / INR (length (fst d)))).

(** Documents without links are passed over, lines 217-219. *)
Definition linked (docs : list doc) : list doc :=
  filter (fun d => match fst d with [] => false | _ => true end) docs.

Definition mean_average_prec_f (argsort : list Q -> list nat) (docs : list doc) : res R :=
  do aps <- mapM (average_prec_f argsort) (linked docs);
  if length docs =? 0 then Raise ZeroDivisionError
  else Ok (rd (fsum aps / INR (length docs))).

(** Lines 64-73: the ranks, from one, at which 1./(r+1) is added. *)
Fixpoint mrr_ranks (r : nat) (recv expt : list nat) : list nat :=
  match recv with
  | [] => []
  | x :: recv' =>
    match expt with
    | [] => []
    | _ => let '(expt', n) := mrr_scan x expt in repeat (r + 1) n ++ mrr_ranks (S r) recv' expt'
    end
  end.

Definition mean_reciprocal_rank_f (argsort : list Q -> list nat) (docs : list doc) : res R :=
  let ranks := flat_map (fun d : doc => mrr_ranks 0 (ranking argsort (snd d)) (fst d)) docs in
  if length ranks =? 0 then Raise ZeroDivisionError
  else Ok (rd (fsum (map (fun r => rd (1 / INR r)) ranks) / INR (length ranks))).
