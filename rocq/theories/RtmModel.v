(** * Model of inference in the relational topic model, /repo/sidetopics/model/rtm.py.

    Numbers are reals, matrices functions of their indices and a document its
    sparse row, as in VbModel.  The digamma function, the normal density and
    distribution functions, the optimisation of the weights (_infer_weights, lines
    481-550), the convergence test (which reads the bound) and the update of the
    prior (lines 579-645) are arbitrary.  Arrays written in place are returned. *)
From Coq Require Import List Reals ZArith Arith Bool.
From Verif Require Import Base RealModel VbModel.
Import ListNotations.
Open Scope nat_scope.

Section Rtm.
  Context (psi pdf probit : R -> R) (minNonZero : R) (K T : nat).

  (** ** _sum_of_scores_at_d, lines 367-384: the matrix of means has K+1 columns. *)
  Definition link_score (len : R) (linked : list nat) (weights : vec) (means : mat) (d : nat) : vec :=
    fun k => rsum (map (fun l =>
      let param := vsum (S K) (fun j => means d j * means l j * weights j)%R in
      (pdf param / (probit param + minNonZero) / len * (weights k * means l k))%R) linked).

  (** ** _infer_topics_at_d, lines 330-364 *)
  Definition rtm_scores (len : R) (mean prior link : vec) (diW : mat) (diSum : vec) (t : nat) : list R :=
    map (fun k => diW k t - diSum k + psi (prior k + len * mean k) + link k)%R (seq 0 K).
  Definition rtm_infer (doc : words) (len : R) (mean prior link : vec) (diW : mat) (diSum : vec) : res (list (list R)) :=
    mapM (fun e => softmax_row (rtm_scores len mean prior link diW diSum (fst e))) doc.

  (** topicMeans[d, :K] = ..., line 322. *)
  Definition set_topics (m : mat) (d : nat) (r : vec) : mat :=
    fun i k => if (i =? d) && (k <? K) then r k else m i k.

  Record rstate := mkRt { r_means : mat; r_word : mat; r_weights : vec; r_prior : vec }.

  Section Train.
    Context (docs : list words) (docLens : vec) (links : list (list nat)) (vocabPrior : R).
    (** _infer_weights, which may raise; has the bound converged in this iteration;
        the prior after _updateTopicHyperParamsFromMeans. *)
    Context (infer_weights : vec -> mat -> vec -> res vec) (converged : nat -> rstate -> bool)
            (update_prior : vec -> mat -> vec).

    (** Lines 446-449 for one document; _update_topics_at_d is lines 302-327. *)
    Definition rtm_visit (word : mat) (weights prior : vec) (st : mat * mat) (d : nat) : res (mat * mat) :=
      let '(means, grad) := st in
      let diW := fun k t => psi (word k t) in
      let diSum := fun k => psi (vsum T (word k)) in
      do doc <- get_ docs d;
      do linked <- get_ links d;
      if forallb (fun l => l <? length docs) linked then
        do z <- rtm_infer doc (docLens d) (means d) prior (link_score (docLens d) linked weights means d) diW diSum;
        Ok (set_topics means d (new_mean doc z (docLens d)), add_words doc z grad)
      else Raise IndexError.
    Fixpoint rtm_visits (ds : list nat) (word : mat) (weights prior : vec) (st : mat * mat) : res (mat * mat) :=
      match ds with
      | [] => Ok st
      | d :: ds => do st' <- rtm_visit word weights prior st d; rtm_visits ds word weights prior st'
      end.

    (** One iteration with updateVocab, lines 437-468; the second component says
        whether the loop is left (line 461).  The bound and the likelihood convert the
        means to parameters and back (lines 170-175, 678-683), which changes nothing
        here. *)
    Definition rtm_iteration (log_freq itr : nat) (s : rstate) : res (rstate * bool) :=
      let word0 : mat := fun _ _ => vocabPrior in
      do st <- rtm_visits (seq 0 (length docs)) (r_word s) (r_weights s) (r_prior s) (r_means s, word0);
      let '(means, word) := st in
      do w <- infer_weights (r_weights s) means (r_prior s);
      let s' := mkRt means word w (r_prior s) in
      if (log_freq =? 0) then Raise ZeroDivisionError
      else if (itr mod log_freq =? 0) && converged itr s' then Ok (s', true)
      else Ok (mkRt means word w (if (0 <? itr) && (itr mod 5 =? 0) then update_prior (r_prior s) means else r_prior s), false).
    Fixpoint rtm_iterations (log_freq n itr : nat) (s : rstate) : res rstate :=
      match n with
      | 0 => Ok s
      | S n => do r <- rtm_iteration log_freq itr s;
               if snd r : bool then Ok (fst r) else rtm_iterations log_freq n (S itr) (fst r)
      end.

    (** train, lines 388-477.  Without updateVocab the call of line 471 passes seven
        of the eight arguments. *)
    Definition rtm_train (log_freq iterations : nat) (s : rstate) (updateVocab : bool) : res rstate :=
      if existsb (fun d => rltb (docLens d) 1) (seq 0 (length docs)) then Raise ValueError
      else
        let s0 := mkRt (params_to_means docLens (r_means s) (r_prior s)) (r_word s) (r_weights s) (r_prior s) in
        do s1 <- if updateVocab then rtm_iterations log_freq iterations 0 s0
                 else if (iterations =? 0) || (length docs =? 0) then Ok s0 else Raise TypeError;
        Ok (mkRt (means_to_params docLens (r_means s1) (r_prior s1)) (r_word s1) (r_weights s1) (r_prior s1)).

    (** query, lines 655-675: the new topics. *)
    Definition rtm_query (log_freq iterations : nat) (s : rstate) : res mat :=
      do s' <- rtm_train log_freq iterations s false; Ok (r_means s').
  End Train.

  (** topicDists, lines 157-167: the last column is left out. *)
  Definition rtm_topic_dists (topicDists : mat) : mat := fun d k => (topicDists d k / vsum K (topicDists d))%R.

  (** newQueryState, lines 107-130: [draw d] is a draw from the Dirichlet
      distribution. *)
  Definition rtm_new_topics (docLens prior : vec) (draw : mat) : mat :=
    fun d k => if k =? K then docLens d else (draw d k * docLens d + prior k)%R.
End Rtm.
