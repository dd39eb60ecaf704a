(** * Model of the point log-likelihood of the scikit-learn wrapper
    (model/sklearn/lda_cvb.py) and of the mixture-of-multinomials model
    model/mom_em.py.  Floating point numbers are real numbers; documents are
    rows of a dense matrix of [T] counts; the digamma function is any function. *)
From Coq Require Import List Reals Arith Bool.
From Verif Require Import Base RealModel.
Import ListNotations.
Open Scope R_scope.

Definition dot (a b : list R) : R := rsum (map (fun '(x, y) => x * y) (combine a b)).
Definition add_rows (a b : list R) : list R := map (fun '(x, y) => x + y) (combine a b).
Definition counts (doc : list nat) : list R := map INR doc.

(** ** lda_cvb.py lines 508-565 [_log_likelihood_score_point], one document *)

(** Line 541 with sparseScalarProductOfSafeLnDot (se_fast.pyx lines 486-531) and
    the sum over the document's words: every word with a count contributes the
    count times the logarithm of the dot product, or of the smallest positive
    number [tiny] when it is not above it. *)
Definition admixture_score (tiny : R) (doc : list nat) (theta : list R) (phi : list (list R)) : R :=
  rsum (map (fun '(t, n) =>
    match n with
    | O => 0
    | _ => let p := dot theta (col phi t) in INR n * (if rltb tiny p then ln p else ln tiny)
    end) (combine (seq 0 (length doc)) doc)).

(** Lines 543-563; [a] is the almostZero of safe_log. *)
Definition component_logs (a : R) (doc : list nat) (theta : list R) (phi : list (list R)) : list R :=
  add_rows (map (fun comp => dot (counts doc) (safe_log a comp)) phi) (safe_log a theta).
Definition mixture_score (a : R) (doc : list nat) (theta : list R) (phi : list (list R)) : res R :=
  let l := component_logs a doc theta phi in
  do mx <- max_of l;
  Ok (rsum (map (fun x => exp (x - mx)) l) + mx).

(** ** evals.py lines 24-27 [perplexity_from_like] *)
Definition perplexity_from_like (ll : R) (tokens : R) : R := exp (- ll / tokens).

(** ** mom_em.py *)
Section MomEm.
  Context (psi : R -> R).

  Definition normalised (row : list R) : list R := map (fun x => x / rsum row) row.

  (** log_likelihood_point lines 368-387, given per-document topics (373-375) or
      not (377).  The word distributions are not protected against zero. *)
  Definition point_logs (doc : list nat) (theta : list R) (wordParam : list (list R)) (a : R) : list R :=
    add_rows (map (fun row => dot (counts doc) (map ln (normalised row))) wordParam) (safe_log a theta).
  Definition point_like_doc (doc : list nat) (theta : list R) (wordParam : list (list R)) (a : R) : res R :=
    let l := point_logs doc theta wordParam a in
    do mx <- max_of l;
    Ok (mx + ln (rsum (map (fun x => exp (x - mx)) l))).
  Definition point_like (docs : list (list nat)) (topics : option (list (list R)))
      (corpusParam : list R) (wordParam : list (list R)) (a : R) : res R :=
    do ls <- mapM (fun '(d, doc) =>
        let theta := match topics with Some t => nth d t [] | None => normalised corpusParam end in
        point_like_doc doc theta wordParam a) (combine (seq 0 (length docs)) docs);
    Ok (rsum ls).

  (** log_likelihood_expected lines 317-365, [lgam] being loggamma.  With a query
      state (329-330) the corpus parameters, which are a vector, are summed over
      their second axis, an AxisError. *)
  Definition alpha_and_sum (cp : list R) (query_given : bool) : res (list R * R) :=
    if query_given then Raise OtherError else Ok (cp, rsum cp).
  Definition topic_term (lgam : R -> R) (alpha : list R) (alpha_sum : R) (k : nat) : R :=
    lgam alpha_sum - lgam (alpha_sum + 1)
    + rsum (map (fun j => lgam ((if (j =? k)%nat then 1 else 0) + nth j alpha 0)) (seq 0 (length alpha)))
    - rsum (map lgam alpha).
  Definition word_term (lgam : R -> R) (doc : list nat) (beta : list R) : R :=
    lgam (rsum beta) - lgam (rsum (counts doc) + rsum beta)
    + rsum (map lgam (add_rows (counts doc) beta)) - rsum (map lgam beta).
  Definition expected_logs (lgam : R -> R) (doc : list nat) (alpha : list R) (alpha_sum : R) (wp : list (list R)) : list R :=
    map (fun '(k, beta) => topic_term lgam alpha alpha_sum k + word_term lgam doc beta) (combine (seq 0 (length wp)) wp).
  Definition expected_like (lgam : R -> R) (docs : list (list nat)) (cp : list R) (wp : list (list R)) (query_given : bool) : res R :=
    do (alpha, alpha_sum) <- alpha_and_sum cp query_given;
    do ls <- mapM (fun doc =>
        let l := expected_logs lgam doc alpha alpha_sum wp in
        do mx <- max_of l;
        Ok (mx + ln (rsum (map (fun x => exp (x - mx)) l)))) docs;
    Ok (rsum ls).

  (** One E-step: train lines 233-237 with the logs kept in step with the
      parameters (lines 226-227, 244-245, 250-251), query lines 293-306. *)
  Definition ln_corpus (cp : list R) : list R := map (fun c => psi c - psi (rsum cp)) cp.
  Definition ln_words (wp : list (list R)) : list (list R) := map (fun row => map (fun w => psi w - psi (rsum row)) row) wp.
  Definition e_step (W : list (list R)) (wp : list (list R)) (cp : list R) : res (list (list R)) :=
    mapM (fun doc => softmax_row (add_rows (map (dot doc) (ln_words wp)) (ln_corpus cp))) W.

  (** The change of the topics, lines 239 and 308-309. *)
  Definition change (old new : list (list R)) : R :=
    rsum (map (fun '(a, b) => rsum (map (fun '(x, y) => Rabs (x - y)) (combine a b))) (combine old new)).
  Definition small_change (old new : list (list R)) (D K : nat) : bool :=
    rltb (change old new) (1 / 1000 * INR D * INR K).

  (** M-step, lines 243 and 248-249, for [K] topics and [T] words. *)
  Definition new_corpus (tops : list (list R)) (topicPrior : list R) : list R :=
    map (fun k => rsum (col tops k) + nth k topicPrior 0) (seq 0 (length topicPrior)).
  Definition new_words (W tops : list (list R)) (K : nat) (vocabPrior : list R) : list (list R) :=
    map (fun k => map (fun t => dot (col W t) (col tops k) + nth t vocabPrior 0) (seq 0 (length vocabPrior))) (seq 0 K).

  (** Lines 230-267.  Where the bound is measured, var_bound reads
      [model.wordDists] (line 401), which a ModelState (lines 43-46) lacks. *)
  Definition measures (debug : bool) (logFrequency itr : nat) : bool :=
    debug || ((0 <? logFrequency)%nat && (itr mod logFrequency =? 0)%nat).
  Fixpoint em_loop (n itr : nat) (debug : bool) (logFrequency : nat) (W : list (list R))
      (topicPrior vocabPrior : list R) (wp : list (list R)) (cp : list R) (tops : list (list R))
      : res (list (list R) * list R * list (list R)) :=
    match n with
    | O => Ok (wp, cp, tops)
    | S n =>
        do tops' <- e_step W wp cp;
        if small_change tops tops' (length W) (length topicPrior) then Ok (wp, cp, tops') else
        let cp' := new_corpus tops' topicPrior in
        let wp' := new_words W tops' (length topicPrior) vocabPrior in
        if measures debug logFrequency itr then Raise AttributeError else
        em_loop n (S itr) debug logFrequency W topicPrior vocabPrior wp' cp' tops'
    end.

  (** train, lines 192-271. *)
  Definition em_train (iterations : nat) (debug : bool) (logFrequency : nat) (W : list (list R))
      (docLens topicPrior vocabPrior : list R) (wp : list (list R)) (cp : list R) (tops : list (list R)) :=
    if existsb (fun l => rltb l 1) docLens then Raise ValueError else
    em_loop iterations 0 debug logFrequency W topicPrior vocabPrior wp cp tops.

  (** query, lines 274-314: the model is returned as it is; line 313 needs the
      loop variable. *)
  Fixpoint query_loop (n : nat) (W : list (list R)) (wp : list (list R)) (cp : list R) (tops : list (list R))
      : res (list (list R)) :=
    match n with
    | O => Ok tops
    | S n =>
        do tops' <- e_step W wp cp;
        if small_change tops tops' (length W) (length cp) then Ok tops'
        else query_loop n W wp cp tops'
    end.
  Definition em_query (iterations : nat) (W : list (list R)) (wp : list (list R)) (cp : list R) (tops : list (list R))
      : res (list (list R)) :=
    do r <- query_loop iterations W wp cp tops;
    if (iterations =? 0)%nat then Raise UnboundLocalError else Ok r.
End MomEm.
