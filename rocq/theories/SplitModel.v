(** * Model of the cross-validation index computation.
    Source: /repo/sidetopics/model/common.py, DataSet.cross_valid_split_indices,
    lines 380-403; and the stand-alone convention of
    /repo/sidetopics/run/perplexity_generator.py. *)
From Coq Require Import List ZArith.
From Verif Require Import Base.
Import ListNotations.
Open Scope Z_scope.

(** [math.ceil(a / b)], common.py line 394.  Simplification: the quotient is
    exact, where Python rounds it to a double first. *)
Definition ceil_div (a b : Z) : Z := - ((- a) / b).

(** common.py lines 380-403.  [D] is [self.doc_count]; fold ids are Python
    integers, so negative ones are representable and pass the assertions.
    Returns (train_range, query_range). *)
Definition cross_valid_split_indices (D test_fold_id num_folds : Z)
  : res (list Z * list Z) :=
  do _ <- assert_ (test_fold_id <? num_folds);
  do _ <- assert_ (1 <? num_folds);
  let query_size := ceil_div D num_folds in
  let train_size := D - query_size in
  let start := query_size * test_fold_id in
  let end_ := start + query_size in
  let query_range := map (fun i => i mod D) (zrange start end_) in
  let train_range := map (fun i => i mod D) (zrange end_ (end_ + train_size)) in
  Ok (train_range, query_range).

(** The stand-alone fold convention of run/perplexity_generator.py lines 65-74:
    training documents first, then the query documents.
    [folds] is ExpectedFoldCount.  Returns (trainSet, querySet). *)
Definition script_split_indices (D fold folds : Z) : list Z * list Z :=
  let foldSize := ceil_div D folds in
  let querySize := foldSize in
  let trainSize := D - querySize in
  let start := fold * foldSize in
  let end_ := start + trainSize in
  (map (fun i => i mod D) (zrange start end_),
   map (fun i => i mod D) (zrange end_ (end_ + querySize))).
