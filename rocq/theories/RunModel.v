(** * Model of the evaluation drivers in /repo/sidetopics/run/__main__.py.

    A fold's work (split, train, query, likelihood) is an argument [work]: it
    returns the numbers that the driver uses or raises.  [save] stands for
    save_model and is only called when a model directory was given; it returns
    the name of the file written, or raises.  Printing cannot fail here.  Sums
    are exact rationals instead of doubles. *)
From Coq Require Import List ZArith QArith Arith Bool.
From Verif Require Import Base SparseModel EvalModel PartModel.
Import ListNotations.
Open Scope nat_scope.

(** What one fold contributes: train_like, train_word_count, query_like and
    query_word_count of lines 440-453. *)
Record fold_stats := mkFold { train_like : Q; train_words : Q; query_like : Q; query_words : Q }.

(** The accumulators of lines 418-422, the files (400), and, for the statements
    only, the list of the folds visited so far. *)
Record totals := mkTotals {
  finished : Z;
  sum_train_like : Q; sum_train_words : Q;
  sum_query_like : Q; sum_query_words : Q;
  files : list nat;
  visited : list nat }.

Definition no_totals : totals := mkTotals 0 0 0 0 0 [] [].

Definition visit (fold : nat) (t : totals) : totals :=
  mkTotals (finished t) (sum_train_like t) (sum_train_words t) (sum_query_like t)
           (sum_query_words t) (files t) (visited t ++ [fold]).

(** Lines 457-461. *)
Definition add_fold (s : fold_stats) (t : totals) : totals :=
  mkTotals (finished t + 1) (sum_train_like t + train_like s) (sum_train_words t + train_words s)
           (sum_query_like t + query_like s) (sum_query_words t + query_words s) (files t) (visited t).

(** save_if_necessary, lines 749-757.  An exception leaves the list unchanged. *)
Definition save_file (save : option (nat -> res nat)) (fold : nat) (fs : list nat) : list nat * bool :=
  match save with
  | None => (fs, true)
  | Some sv => match sv fold with Ok f => (fs ++ [f], true) | Raise _ => (fs, false) end
  end.

Definition with_files (fs : list nat) (t : totals) : totals :=
  mkTotals (finished t) (sum_train_like t) (sum_train_words t) (sum_query_like t)
           (sum_query_words t) fs (visited t).

(** The body of the loop, lines 426-471: an exception in the work abandons the
    fold; one while saving comes after the accumulators were updated. *)
Definition perp_fold (work : nat -> res fold_stats) (save : option (nat -> res nat))
           (fold : nat) (t : totals) : totals :=
  match work fold with
  | Raise _ => t
  | Ok s => let t1 := add_fold s t in with_files (fst (save_file save fold (files t1))) t1
  end.

(** The while loop, lines 424-473; [todo] is num_folds - fold. *)
Fixpoint perp_loop (work : nat -> res fold_stats) (save : option (nat -> res nat)) (limit : Z)
         (todo fold : nat) (t : totals) : totals :=
  match todo with
  | 0 => t
  | S todo' =>
    if (finished t <? limit)%Z
    then perp_loop work save limit todo' (S fold) (perp_fold work save fold (visit fold t))
    else t
  end.

(** Lines 401-402, 507-508. *)
Definition run_limit (num_folds fold_run_count : Z) : Z :=
  if (fold_run_count <? 1)%Z then num_folds else fold_run_count.

(** cross_val_and_eval_perplexity, lines 382-478.  [whole] is the work of the
    special path for one fold (404-416): likelihood and word count of the
    training data.  The totals printed at the end call perplexity_from_like with
    the integers 0 and 0 when no fold finished. *)
Definition cv_perplexity (num_folds fold_run_count : Z) (work : nat -> res fold_stats)
           (whole : res (Q * Q)) (save : option (nat -> res nat)) : res totals :=
  let limit := run_limit num_folds fold_run_count in
  if (num_folds =? 1)%Z then
    do (like, words) <- whole;
    match save with
    | None => Ok (mkTotals 1 like words 0 0 [] [])
    | Some sv => do f <- sv 0; Ok (mkTotals 1 like words 0 0 [f] [])
    end
  else
    let t := perp_loop work save limit (Z.to_nat num_folds) 0 no_totals in
    if (finished t =? 0)%Z then Raise ZeroDivisionError else Ok t.

(** ** cross_val_and_eval_hashtag_prec_at_m, lines 481-571.  [work] is all of a
    fold up to the printing of its tables.  folds_finished is set at line 512
    and never changed.  Returns the files and the folds visited. *)
Fixpoint hashtag_loop (work : nat -> res unit) (save : option (nat -> res nat)) (folds_finished limit : Z)
         (todo fold : nat) (fs vs : list nat) : list nat * list nat :=
  match todo with
  | 0 => (fs, vs)
  | S todo' =>
    if (folds_finished <? limit)%Z then
      let fs' := match work fold with
                 | Raise _ => fs
                 | Ok _ => fst (save_file save fold fs)
                 end in
      hashtag_loop work save folds_finished limit todo' (S fold) fs' (vs ++ [fold])
    else (fs, vs)
  end.

Definition cv_hashtags (num_folds fold_run_count : Z) (work : nat -> res unit)
           (save : option (nat -> res nat)) : res (list nat * list nat) :=
  let limit := run_limit num_folds fold_run_count in
  if (num_folds <=? 1)%Z then Raise ValueError
  else Ok (hashtag_loop work save 0 limit (Z.to_nat num_folds) 0 [] []).

(** The numbers of lines 543-553 for one hashtag (column [hi]) and one m.
    [order] is the result of h_probs.argsort(). *)
Definition last_of {A} (m : nat) (l : list A) : list A := skipn (length l - m) l.

Definition column_sum (check : smat) (hi : nat) : Z :=
  sumZ (map (fun i => mget check i hi) (seq 0 (nrows check))).

Definition hashtag_scores (check : smat) (order : list nat) (hi m : nat) : Q * Q :=
  let h_count := column_sum check hi in
  let top_m := rev (last_of m order) in
  let matched := sumZ (map (fun i => mget check i hi) top_m) in
  let rec_denom := Z.min (Z.of_nat m) h_count in
  ((inject_Z matched / inject_Z (Z.of_nat m))%Q, (inject_Z matched / inject_Z (Z.max rec_denom 1))%Q).

(** Lines 518-519: the words given to the query and the words kept for
    checking.  The last argument is line 272's argument hashtag_train_prop. *)
Definition hashtag_split (tags : list nat) (draw : nat -> Q) (hashtag_train_prop : Q) (words : smat)
  : smat * smat := soft_split tags draw hashtag_train_prop words.

(** The value passed by run, line 272. *)
Definition hashtag_train_prop_passed : Q := 0.

(** ** Drivers with range(...) loops and no exception handling.
    [step] is a fold's work up to combining its tables with those of the folds
    before ([None] before the first).  The combined tables are printed at the end
    (679-680, 921-922, 1035-1036): without any fold combi_precs is still None and
    printTable's scores.keys() (1203) raises. *)
Fixpoint seq_folds {A} (step : option A -> nat -> res A) (save : option (nat -> res nat))
         (todo : list nat) (st : option A) (fs : list nat) : res (option A * list nat) :=
  match todo with
  | [] => Ok (st, fs)
  | f :: todo' =>
    do a <- step st f;
    do fs' <- match save with None => Ok fs | Some sv => do n <- sv f; Ok (fs ++ [n]) end;
    seq_folds step save todo' (Some a) fs'
  end.

Definition report {A} (r : res (option A * list nat)) : res (A * list nat) :=
  do (st, fs) <- r;
  match st with None => Raise AttributeError | Some a => Ok (a, fs) end.

(** cross_val_and_eval_tag_prec_rec_at_m, lines 577-684, and (with a [step] that
    always raises, see C19) link_split_prec_rec, lines 837-925.  The break at
    673-674 comes after the last fold of the range and changes nothing. *)
Definition cv_tags {A} (num_folds : Z) (target_folds : option Z) (step : option A -> nat -> res A)
           (save : option (nat -> res nat)) : res (A * list nat) :=
  if (num_folds <=? 1)%Z then Raise AssertionError
  else
    let target := match target_folds with None => num_folds | Some t => t end in
    report (seq_folds step save (seq 0 (Z.to_nat target)) None []).

(** insample_lro_style_prec_rec, lines 928-1040: range(folds), leaving the loop
    when fold_count == target_folds (1028-1030). *)
Fixpoint break_folds {A} (step : option A -> nat -> res A) (save : option (nat -> res nat))
         (target count : Z) (todo : list nat) (st : option A) (fs : list nat) : res (option A * list nat) :=
  match todo with
  | [] => Ok (st, fs)
  | f :: todo' =>
    do a <- step st f;
    do fs' <- match save with None => Ok fs | Some sv => do n <- sv f; Ok (fs ++ [n]) end;
    if (count + 1 =? target)%Z then Ok (Some a, fs')
    else break_folds step save target (count + 1) todo' (Some a) fs'
  end.

Definition cv_insample {A} (folds : Z) (target_folds : option Z) (step : option A -> nat -> res A)
           (save : option (nat -> res nat)) : res (A * list nat) :=
  if (folds <=? 1)%Z then Raise AssertionError
  else
    let target := match target_folds with None => folds | Some t => t end in
    report (break_folds step save target 0 (seq 0 (Z.to_nat folds)) None []).

(** The default of --truncate-folds, line 124, passed on by lines 262-290. *)
Definition truncate_folds_default : Z := -1.

(** ** The scores of lines 643-644: csr_clip keeps the stored positions of the
    words removed from a document, and sparseScalarProductOfDot computes a score
    for exactly these positions (see C33). *)
Definition tag_doc (expected : list nat) (score : nat -> Q) : doc :=
  (expected, map (fun w => (w, score w)) expected).

(** ** popular_indices, lines 335-349, for two or more words (np.squeeze would
    make a scalar of a single one).  [argsort] as in [ranking]. *)
Definition popular_indices (argsort : list Z -> list nat) (words : smat) (word_indices : list nat)
           (count : nat) : list nat :=
  let word_counts := map (column_sum words) word_indices in
  let best := rev (last_of count (argsort word_counts)) in
  map (fun i => nth i word_indices 0) best.
