(** * Model of /repo/sidetopics/model/lda_vb_python.py: variational LDA, in
    batches and by stochastic updates.

    Numbers are reals: rounding, overflow and NaN are not modelled.  The digamma
    function, the variational bound and the random draws are arbitrary.  Matrices
    are functions of their two indices; a document is its sparse row, a list of
    word indices and counts.  The arrays written in place are returned. *)
From Coq Require Import List Reals ZArith Arith Bool.
From Verif Require Import Base RealModel.
Import ListNotations.
Open Scope nat_scope.

Definition vec : Type := nat -> R.
Definition mat : Type := nat -> nat -> R.
Definition words : Type := list (nat * R).

(** x.sum() of the first [n] entries. *)
Definition vsum (n : nat) (v : vec) : R := rsum (map v (seq 0 n)).

(** ** Plans, lines 30-41 and 146-162 *)
(** The values of rate_algor: the four names the module knows, or another. *)
Inductive rate := RBatch | RKappa | RAmari | RVariance | ROther.
Record plan := mkPlan
  { p_iterations : Z; p_batch : Z; p_delay : R; p_forget : R; p_a : R; p_b : R; p_rate : rate }.
Definition new_plan (iterations batchSize : Z) (rate_delay forgetting_rate rate_a rate_b : R) (r : rate) : plan :=
  let r := if (0 <? batchSize)%Z then RKappa else r in
  mkPlan iterations batchSize rate_delay forgetting_rate rate_a rate_b r.
(** The default values of the arguments, lines 146-147. *)
Definition default_plan (iterations batchSize : Z) : plan :=
  new_plan iterations batchSize (6 / 10)%R (6 / 10)%R 2 (5 / 10)%R RBatch.

(** ** _convertDirichletParamToMeans, lines 211-218, and
       _convertMeansToDirichletParam, lines 221-228 *)
Definition params_to_means (docLens : vec) (m : mat) (prior : vec) : mat :=
  fun d k => ((m d k - prior k) / docLens d)%R.
Definition means_to_params (docLens : vec) (m : mat) (prior : vec) : mat :=
  fun d k => (m d k * docLens d + prior k)%R.

(** ** wordDists and topicDists, lines 164-185: [n] is the number of columns. *)
Definition norm_rows (n : nat) (m : mat) : mat := fun i j => (m i j / vsum n (m i))%R.

(** ** update_inplace_s, lines 459-462, and update_inplace_v, lines 464-467: the
       new contents of old and of change. *)
Definition update_s (step old change : vec) : vec * vec :=
  let change' := fun k => (change k * step k)%R in
  ((fun k => old k * (1 - step k) + change' k)%R, change').
Definition update_v (step : vec) (old change : mat) : mat * mat :=
  let change' := fun k t => (change k t * step k)%R in
  ((fun k t => old k t * (1 - step k) + change' k t)%R, change').

(** (b + rate_delay)**(-forgetting_rate), line 414.  Simplified: a base that is not
    positive, for which Python raises or gives a complex number, is an error. *)
Definition kappa_step (b : nat) (delay forget : R) : res R :=
  let base := (INR b + delay)%R in
  if rltb 0 base then Ok (Rpower base (- forget)) else Raise OtherError.

Section Vb.
  Context (psi : R -> R) (bound : mat -> mat -> R) (K T : nat).

  (** ** _infer_topics_at_d, lines 303-334: the distribution over topics of every
         stored word; _inplace_softmax_colwise, lines 236-256, of an array without
         rows raises in max(). *)
  Definition scores (len : R) (mean prior : vec) (diW : mat) (diSum : vec) (t : nat) : list R :=
    map (fun k => diW k t - diSum k + psi (prior k + len * mean k))%R (seq 0 K).
  Definition infer (doc : words) (len : R) (mean prior : vec) (diW : mat) (diSum : vec) : res (list (list R)) :=
    mapM (fun e => softmax_row (scores len mean prior diW diSum (fst e))) doc.

  (** ** _update_topics_at_d, lines 279-300: the new row of topicMeans. *)
  Definition new_mean (doc : words) (z : list (list R)) (len : R) : vec :=
    fun k => (rsum (map (fun '((_, x), zc) => nth k zc 0 * x) (combine doc z)) / len)%R.

  (** Line 408, grad[:, wordIdx] += W[d,:].data * z: numpy adds to the old values, so
      the last of repeated indices wins. *)
  Definition stored (doc : words) (z : list (list R)) (t : nat) : option (R * list R) :=
    fold_left (fun acc '((u, x), zc) => if u =? t then Some (x, zc) else acc) (combine doc z) None.
  Definition add_words (doc : words) (z : list (list R)) (grad : mat) : mat :=
    fun k t => match stored doc z t with Some (x, zc) => (grad k t + x * nth k zc 0)%R | None => grad k t end.

  Definition set_row (m : mat) (d : nat) (r : vec) : mat := fun i k => if i =? d then r k else m i k.

  (** ** train, lines 337-457 *)
  Record vstate := mkV
    { v_d : Z; v_means : mat; v_word : mat; v_step : vec; v_gradStep : vec; v_ex : mat; v_gtg : vec;
      (** The documents visited, newest first; not part of the code. *)
      v_log : list nat }.

  Section Train.
    Context (docs : list words) (docLens prior : vec) (vocabPrior : R) (p : plan).

    (** Lines 405-408, with the digammas of lines 390-392 and 447-451. *)
    Definition visit (word : mat) (st : Z * mat * mat * list nat) : res (Z * mat * mat * list nat) :=
      let '(d, means, grad, log) := st in
      let d' := if (d + 1 <? Z.of_nat (length docs))%Z then (d + 1)%Z else 0%Z in
      let i := Z.to_nat d' in
      let diW := fun k t => psi (word k t) in
      let diSum := fun k => psi (vsum T (word k)) in
      do doc <- get_ docs i;
      do z <- infer doc (docLens i) (means i) prior diW diSum;
      Ok (d', set_row means i (new_mean doc z (docLens i)), add_words doc z grad, i :: log).

    Fixpoint visits (n : nat) (word : mat) (st : Z * mat * mat * list nat) : res (Z * mat * mat * list nat) :=
      match n with
      | O => Ok st
      | S n => do st' <- visit word st; visits n word st'
      end.

    (** Lines 410-440: the state after the update of the vocabulary. *)
    Definition adjust (b : nat) (s : vstate) (d : Z) (means grad : mat) (log : list nat) : res vstate :=
      match p_rate p with
      | RBatch => Ok (mkV d means grad (v_step s) (v_gradStep s) (v_ex s) (v_gtg s) log)
      | RKappa =>
          do x <- kappa_step b (p_delay p) (p_forget p);
          let step := fun _ => x in
          let '(word, _) := update_v step (v_word s) grad in
          Ok (mkV d means word step (v_gradStep s) (v_ex s) (v_gtg s) log)
      | RVariance =>
          let '(ex, grad) := update_v (v_gradStep s) (v_ex s) grad in
          let top := fun k => vsum T (fun t => ex k t * ex k t)%R in
          let gtg := fun k => vsum T (fun t => grad k t * grad k t)%R in
          let '(ex_gtg, _) := update_s (v_gradStep s) (v_gtg s) gtg in
          let step := fun k => (top k / ex_gtg k)%R in
          let gradStep := fun k => (v_gradStep s k * (1 - step k) + 1)%R in
          let '(word, _) := update_v step (v_word s) grad in
          Ok (mkV d means word step gradStep ex ex_gtg log)
      | RAmari =>
          let params := means_to_params docLens means prior in
          let ll := bound (v_word s) params in
          let x := (v_step s 0%nat * exp (p_a p * (p_b p * - ll - v_step s 0%nat)))%R in
          let step := fun _ => x in
          let means := means_to_params docLens params prior in
          let '(word, _) := update_v step (v_word s) grad in
          Ok (mkV d means word step (v_gradStep s) (v_ex s) (v_gtg s) log)
      | ROther => Raise ValueError
      end.

    Definition one_batch (bs b : nat) (s : vstate) : res vstate :=
      let grad0 : mat := fun _ _ => vocabPrior in
      do st <- visits bs (v_word s) (v_d s, v_means s, grad0, v_log s);
      let '(d, means, grad, log) := st in
      adjust b s d means grad log.

    Fixpoint batches (bs n b : nat) (s : vstate) : res vstate :=
      match n with
      | O => Ok s
      | S n => do s' <- one_batch bs b s; batches bs n (S b) s'
      end.

    (** Lines 376-381. *)
    Definition batch_sizes : res (Z * Z) :=
      let D := Z.of_nat (length docs) in
      match p_rate p with
      | RBatch => Ok (D, 1)%Z
      | _ => if (p_batch p =? 0)%Z then Raise ZeroDivisionError else Ok (p_batch p, D / p_batch p + 1)%Z
      end.

    Definition train_state (word topicDists : mat) : res vstate :=
      if existsb (fun d => rltb (docLens d) 1) (seq 0 (length docs)) then Raise ValueError
      else
        let means := params_to_means docLens topicDists prior in
        do (bs, bc) <- batch_sizes;
        if (bs =? 0)%Z then Raise ZeroDivisionError
        else if match p_rate p with ROther => true | _ => false end then Raise ValueError (* _sgd_desc, lines 396 and 641-658 *)
        else
          let s0 := mkV (-1) means word (fun _ => 1%R) (fun _ => (1 / IZR bs)%R) (fun _ _ => 0%R) (fun _ => 0%R) [] in
          batches (Z.to_nat bs) (Z.to_nat (bc * p_iterations p)) 0 s0.

    (** The word and topic parameters returned, and the documents visited in order.
        The argument updateVocab is not read. *)
    Definition train (word topicDists : mat) (updateVocab : bool) : res (mat * mat * list nat) :=
      do s <- train_state word topicDists;
      Ok (v_word s, means_to_params docLens (v_means s) prior, rev (v_log s)).

    (** ** query, lines 739-759: the given model is returned, whose word parameters
           are the array that train has overwritten (line 411 or 467). *)
    Definition query (word topicDists : mat) : res (mat * mat) :=
      do (r, _) <- train word topicDists false;
      let '(word', topics) := r in
      Ok (word', topics).
  End Train.
End Vb.

(** ** newModelAtRandom, lines 67-108: one topic.  [draw i] is the i-th random
       document; lines 100-104 repeat until a thousand tokens are sampled. *)
Fixpoint seed_loop (fuel : nat) (docs : list words) (draw : nat -> nat) (i : nat) (row : vec) (len : R) : option (res (vec * nat)) :=
  if rltb len 1000 then
    match fuel with
    | O => None
    | S fuel =>
        match nth_error docs (draw i) with
        | None => Some (Raise IndexError)
        | Some doc =>
            let row' := fun t => match fold_left (fun acc '(u, x) => if u =? t then Some x else acc) doc None with
                                 | Some x => (row t + x)%R | None => row t end in
            seed_loop fuel docs draw (S i) row' (len + rsum (map snd doc))
        end
    end
  else Some (Ok (row, i)).

Definition seed_topic (fuel : nat) (T : nat) (docs : list words) (draw : nat -> nat) (i : nat) : option (res (vec * nat)) :=
  match seed_loop fuel docs draw i (fun _ => 1%R) 0 with
  | Some (Ok (row, i)) => Some (Ok ((fun t => row t / vsum T row)%R, i))
  | Some (Raise e) => Some (Raise e)
  | None => None
  end.

Fixpoint seed_topics (fuel : nat) (K T : nat) (docs : list words) (draw : nat -> nat) (i : nat) : option (res (list vec)) :=
  match K with
  | O => Some (Ok [])
  | S K =>
      match seed_topic fuel T docs draw i with
      | Some (Ok (row, i)) =>
          match seed_topics fuel K T docs draw i with
          | Some (Ok rows) => Some (Ok (row :: rows))
          | o => o
          end
      | Some (Raise e) => Some (Raise e)
      | None => None
      end
  end.

(** Lines 86-87 and 97-105; the asserted sizes. *)
Definition new_model (fuel : nat) (K T : nat) (docs : list words) (draw : nat -> nat) : option (res (list vec)) :=
  if (1 <? K) && (K <? 255) then seed_topics fuel K T docs draw 0 else Some (Raise AssertionError).

(** ** newQueryState, lines 111-136: [theta] are the Dirichlet draws.  np.squeeze
       turns the lengths of a single document into a scalar, which line 133 indexes. *)
Definition doc_lens (docs : list words) : vec := fun d => rsum (map snd (nth d docs [])).
Definition new_query (docs : list words) (theta : mat) (prior : vec) : res (vec * mat) :=
  if length docs =? 1 then Raise IndexError
  else Ok (doc_lens docs, means_to_params (doc_lens docs) theta prior).
