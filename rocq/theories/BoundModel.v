(** * Model of the variational bounds of the models of latent Dirichlet allocation:
    lda_vb_python.py, lda_vb.py, lda_cvb.py and lda_cvb0.py.

    Numbers are reals: rounding, overflow and NaN are not modelled.  [gammaln] and
    [psi] are arbitrary here.  Matrices are functions of their indices.  Sums may be
    taken in another order than in the code. *)
From Coq Require Import List Reals ZArith Arith Bool.
From Verif Require Import Base RealModel VbModel VbFastModel.
Import ListNotations.
Open Scope nat_scope.

(** The values a vocabulary prior may have: a Python number, an array, or a numpy
    number, for which type(x) is neither float nor int (lda_vb_python.py line 808). *)
Inductive word_prior := WNum (x : R) | WVec (v : vec) | WNumpy (x : R).

Section Py.
  Context (psi gammaln : R -> R) (K T : nat).

  (** ** _dirichletEntropy, lda_vb_python.py lines 845-857. *)
  Definition dirichlet_entropy (rows cols : nat) (P : mat) : R :=
    vsum rows (fun i =>
      let s := vsum cols (P i) in
      (vsum cols (fun j => gammaln (P i j)) - gammaln s) + (s - INR cols) * psi s
      - vsum cols (fun j => (P i j - 1) * psi (P i j)))%R.

  (** Lines 794-797. *)
  Definition prob_topics (D : nat) (prior : vec) (topics : mat) : R :=
    (INR D * (gammaln (vsum K prior) - vsum K (fun k => gammaln (prior k)))
     + vsum D (fun d => vsum K (fun k => (prior k - 1) * (psi (topics d k) - psi (vsum K (topics d))))))%R.

  (** Lines 808-813.  A numpy number has sum() but cannot be indexed. *)
  Definition prob_vocabs (wp : word_prior) (word : mat) : res R :=
    match wp with
    | WNum w => Ok (INR K * (gammaln (w * INR T) - INR T * gammaln w)
                    + vsum K (fun k => vsum T (fun t => (w - 1) * (psi (word k t) - psi (vsum T (word k))))))%R
    | WVec v => Ok (INR K * (gammaln (vsum T v) - vsum T (fun t => gammaln (v t)))
                    + vsum K (fun k => vsum T (fun t => (v t - 1) * (psi (word k t) - psi (vsum T (word k))))))%R
    | WNumpy _ => Raise IndexError
    end.

  (** Lines 828-839, one document: prob_z, ent_z and prob_words; [a] is almostZero of
      safe_log (overflow_safe.py line 191), [ex] exLnTopic and [exW] line 836's
      expectation. *)
  Definition doc_bound (a : R) (doc : words) (z : list (list R)) (ex : vec) (exW : mat) : R :=
    (vsum K (fun k => rsum (map (fun '((_, x), zc) => nth k zc 0 * ex k * x) (combine doc z)))
     - vsum K (fun k => rsum (map (fun '((_, x), zc) => nth k zc 0 * nth k (safe_log a zc) 0 * x) (combine doc z)))
     + rsum (map (fun '((t, x), zc) => vsum K (fun k => x * nth k zc 0 * exW k t)) (combine doc z)))%R.

  (** ** var_bound, lda_vb_python.py lines 771-843. *)
  Definition var_bound_py (a : R) (docs : list words) (docLens prior : vec) (wp : word_prior) (word topics : mat) : res R :=
    let D := length docs in
    do pv <- prob_vocabs wp word;
    let means := params_to_means docLens topics prior in
    let diW := fun k t => psi (word k t) in
    let diSum := fun k => psi (vsum T (word k)) in
    do ts <- mapM (fun d =>
      do doc <- get_ docs d;
      do z <- infer psi K doc (docLens d) (means d) prior diW diSum;
      Ok (doc_bound a doc z (fun k => psi (topics d k) - psi (vsum K (topics d)))%R (fun k t => diW k t - diSum k)%R)) (seq 0 D);
    Ok (prob_topics D prior topics + dirichlet_entropy D K topics + pv + dirichlet_entropy K T word + rsum ts)%R.

  (** ** lda_vb.py, var_bound, lines 401-413 and 442-450: the terms that VbFastModel
         leaves to an argument.  [vocab] is normalised (line 393). *)
  Definition fast_others (D : nat) (prior : vec) (vocabPrior : R) (topics vocab : mat) : R :=
    let diT := fun d k => (psi (topics d k) - psi (vsum K (topics d)))%R in
    let diW := fun k t => (psi (vocab k t) - psi (vsum T (vocab k)))%R in
    (INR D * (gammaln (vsum K prior) - vsum K (fun k => gammaln (prior k)))
       + vsum D (fun d => vsum K (fun k => (prior k - 1) * diT d k))
     - (vsum D (fun d => gammaln (vsum K (topics d))) - vsum D (fun d => vsum K (fun k => gammaln (topics d k)))
        + vsum D (fun d => vsum K (fun k => (topics d k - 1) * diT d k)))
     + (INR K * (gammaln (INR T * vocabPrior) - INR T * gammaln vocabPrior)
        + (vocabPrior - 1) * vsum K (fun k => vsum T (fun t => diW k t)))
     - (vsum K (fun k => gammaln (vsum T (vocab k))) - vsum K (fun k => vsum T (fun t => gammaln (vocab k t)))
        + vsum K (fun k => vsum T (fun t => (vocab k t - 1) * diW k t))))%R.
  Definition var_bound_fast (D : nat) (W : nat -> nat -> nat) (lens : nat -> nat) (prior : vec) (vocabPrior : R)
      (maxN : nat) (s : vst) (z : mat) : R :=
    var_bound psi K T D W lens (fast_others D prior vocabPrior) maxN s z.

  (** ** jagged_entropy_f32 and _f64, lda_cvb0_fast.pyx lines 593-642 and
         lda_cvb_fast.pyx lines 659-708; z log z is a number only when z is positive. *)
  Definition jagged_entropy (D : nat) (z : nat -> nat -> nat -> R) (lens : nat -> nat) : R :=
    fold_left (fun e d => fold_left (fun e n => fold_left (fun e k => e - z d n k * ln (z d n k))%R (seq 0 K) e)
      (seq 0 (lens d)) e) (seq 0 D) 0%R.

  (** ** lda_cvb.py, var_bound, lines 426-475, and lda_cvb0.py,
         log_likelihood_expected, lines 395-444: the same arithmetic.  The word counts
         are the model's, the other counts the query's.  Other types than the two
         floating point ones raise (lines 467-468 and 437-438) and are left out. *)
  Definition var_bound_cvb (D : nat) (lens : nat -> nat) (prior : vec) (b : R) (n_dk n_kt : mat) (n_k : vec)
      (z : nat -> nat -> nat -> R) : R :=
    (0 + INR D * (gammaln (vsum K prior) - vsum K (fun k => gammaln (prior k)))
       + INR K * (gammaln (INR T * b) - INR T * gammaln b)
       - vsum D (fun d => gammaln (vsum K prior + INR (lens d)))
       + vsum D (fun d => vsum K (fun k => gammaln (prior k + n_dk d k)))
       - vsum K (fun k => gammaln (INR T * b + n_k k))
       + vsum K (fun k => vsum T (fun t => gammaln (b + n_kt k t)))
       - jagged_entropy D z lens)%R.
End Py.

(** ** train of lda_vb_python.py with any word prior, lines 355-402: an array with more
       than one entry cannot fill an array (line 402), so only the checks before the
       first batch matter. *)
Definition train_any (psi : R -> R) (bnd : mat -> mat -> R) (K T : nat) (docs : list words) (docLens prior : vec)
    (wp : word_prior) (p : plan) (word topics : mat) (upd : bool) : res (mat * mat * list nat) :=
  match wp with
  | WNum x | WNumpy x => VbModel.train psi bnd K T docs docLens prior x p word topics upd
  | WVec _ =>
      if existsb (fun d => rltb (docLens d) 1) (seq 0 (length docs)) then Raise ValueError
      else
        do (bs, bc) <- VbModel.batch_sizes docs p;
        if (bs =? 0)%Z then Raise ZeroDivisionError
        else if match p_rate p with ROther => true | _ => false end then Raise ValueError
        else if (0 <? bc * p_iterations p)%Z then Raise ValueError
        else Ok (word, means_to_params docLens (params_to_means docLens topics prior) prior, [])
  end.
