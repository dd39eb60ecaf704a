(** * Model of the link evaluations of /repo/sidetopics/run/__main__.py: what they
    add up over folds (lines 928-1040) and over features (1043-1145), and the saved
    LDA model that they are given (178-181, 299-313, 760-783, 1155-1173).

    A document is, as in EvalModel, the columns of its row of expected links and
    the stored entries of its row of predicted scores.  Training and prediction are
    an argument [eval].  Sums and quotients are exact rationals. *)
From Coq Require Import List ZArith QArith Arith Bool.
From Verif Require Import Base SparseModel DatasetModel PartModel EvalModel RunModel.
Import ListNotations.
Open Scope nat_scope.

(** ** What one round adds, lines 1005-1024 and 1113-1132 *)

(** Lines 958 and 1073; 1005 and 1113. *)
Definition lro_ms : list nat := [10; 20; 30; 40; 50; 75; 100; 150; 250; 500].
Definition lro_groups : list group := [(0, 3); (3, 5); (5, 10); (10, 1000)]%Z.

Definition prec_table (t : EvalModel.dict tally) : avgs := map (fun '(g, x) => (g, tprec x)) t.
Definition rec_table (t : EvalModel.dict tally) : avgs := map (fun '(g, x) => (g, trec x)) t.
Definition count_table (t : EvalModel.dict tally) : counts := map (fun '(g, x) => (g, tcount x)) t.

(** The variables of lines 973-975. *)
Record sums := mkSums
  { s_precs : avgs; s_recs : avgs; s_counts : counts;
    mrr_sum : Q; mrr_docs : nat; map_sum : Q; map_docs : nat }.

Definition old_sum (f : sums -> Q) (st : option sums) : Q := match st with None => 0%Q | Some s => f s end.
Definition old_docs (f : sums -> nat) (st : option sums) : nat := match st with None => 0 | Some s => f s end.

Definition qn (n : nat) : Q := inject_Z (Z.of_nat n).

Definition lro_scores (argsort : list Q -> list nat) (docs : list doc) (st : option sums) : res sums :=
  do t <- mean_prec_rec_at argsort (Some lro_ms) (Some lro_groups) docs;
  do p <- combine_map (option_map (fun s => (s_precs s, s_counts s)) st) (prec_table t, count_table t);
  do r <- combine_map (option_map (fun s => (s_recs s, s_counts s)) st) (rec_table t, count_table t);
  do mrr <- mean_reciprocal_rank argsort docs;
  do map <- mean_average_prec argsort docs;
  Ok (mkSums (fst p) (fst r) (snd r)
             (old_sum mrr_sum st + mrr * qn (length docs)) (old_docs mrr_docs st + length docs)
             (old_sum map_sum st + map * qn (length docs)) (old_docs map_docs st + length docs)).

(** Lines 1037-1038 and 1142-1143: what is printed at the end. *)
Definition final_mrr (s : sums) : res Q :=
  if mrr_docs s =? 0 then Raise ZeroDivisionError else Ok (mrr_sum s / qn (mrr_docs s))%Q.
Definition final_map (s : sums) : res Q :=
  if map_docs s =? 0 then Raise ZeroDivisionError else Ok (map_sum s / qn (map_docs s))%Q.

(** ** insample_lro_style_prec_rec, lines 928-1040.  [eval fold] is the splitting, training
    and prediction of lines 980-1002. *)
Definition insample (argsort : list Q -> list nat) (folds : Z) (target_folds : option Z)
           (eval : nat -> res (list doc)) (save : option (nat -> res nat)) : res (sums * list nat) :=
  cv_insample folds target_folds (fun st f => do docs <- eval f; lro_scores argsort docs st) save.

(** ** subsetLda, lines 1155-1173, and line 1092.  The topics of an LDA model have a row per
    document; pruneQueryState of lda_gibbs.py (152-163) and of lda_vb_python.py (139-143) selects
    rows.  The result for no model, None, cannot be unpacked by line 1092. *)
Inductive lda_kind := GibbsLda | VbLda | OtherLda.

Section outsample.
  Context {T M : Type}.

  Definition subset_lda (lda : option (lda_kind * M) * list T) (ix : list nat) : res (M * list T) :=
    match fst lda with
    | None => Raise TypeError
    | Some (GibbsLda, m) | Some (VbLda, m) => do rows <- select ix (snd lda); Ok (m, rows)
    | Some (OtherLda, _) => Raise ValueError
    end.

  (** ** outsample_lro_style_prec_rec, lines 1043-1145.  [eval train query lda] is lines 1087-1110,
      where [lda] is what line 1092 gave to a model that uses LDA. *)
  Fixpoint outsample_loop (argsort : list Q -> list nat) (ds : dataset) (uses_lda : bool)
           (lda : option (lda_kind * M) * list T)
           (eval : dataset -> dataset -> option (M * list T) -> res (list doc)) (save : option (nat -> res nat))
           (mask : list nat) (st : option sums) (fs : list nat) : res (option sums * list nat) :=
    match mask with
    | [] => Ok (st, fs)
    | feat :: rest =>
      do (trqu, ix) <- split_on_feature ds mask;
      let '(train, query) := trqu in
      do sub <- (if uses_lda then do s <- subset_lda lda ix; Ok (Some s) else Ok None);
      do docs <- eval train query sub;
      do s <- lro_scores argsort docs st;
      do fs' <- match save with None => Ok fs | Some sv => do n <- sv feat; Ok (fs ++ [n]) end;
      outsample_loop argsort ds uses_lda lda eval save rest (Some s) fs'
    end.

  (** Only the numbers of the features in the mask matter (line 1082); the labels are printed. *)
  Definition outsample argsort ds uses_lda lda eval save mask : res (sums * list nat) :=
    report (outsample_loop argsort ds uses_lda lda eval save mask None []).

  (** ** Saved models *)

  (** What line 781 stores of a run of cross_val_and_eval_perplexity (lines 404-416 and 426-468): the
      order of the whole dataset, the model, and the topics of the documents trained on. *)
  Definition saved : Type := list nat * (lda_kind * M) * list T.

  Definition saved_by (train : dataset -> res ((lda_kind * M) * list T)) (ds : dataset) (fold num_folds : Z) : res saved :=
    if (num_folds =? 1)%Z
    then do (m, tops) <- train ds; Ok (order ds, m, tops)
    else do (tr, _) <- cross_valid_split ds fold num_folds;
         do (m, tops) <- train tr; Ok (order ds, m, tops).

  (** np.all(a == b) of two one-dimensional arrays: of the same length, or one of length one, which
      is then compared with every entry of the other; other shapes are not equal. *)
  Definition np_all_equal (a b : list nat) : bool :=
    if length a =? length b then forallb (fun '(x, y) => x =? y) (combine a b)
    else match a, b with
         | [x], _ => forallb (fun y => x =? y) b
         | _, [y] => forallb (fun x => x =? y) a
         | _, _ => false
         end.

  (** load_and_adapt_lda_model, lines 299-313. *)
  Definition load_lda (file : saved) (desired_order : list nat) : res ((lda_kind * M) * list T) :=
    let '(saved_order, m, tops) := file in
    if np_all_equal saved_order desired_order then Ok (m, tops) else Raise ValueError.
End outsample.
