(** * Model of the wrappers of other libraries' topic models in
    model/sklearn/lda_cvb.py: WrappedSckitLda (lines 589-756, of scikit-learn's
    LatentDirichletAllocation) and WrappedScikitHdp (lines 759-925, of gensim's
    HdpTransformer).

    What the libraries do is taken from their documentation.  For LatentDirichletAllocation:
    the names of the constructor's arguments; fit calls [_init_latent_vars], makes
    max_iter passes over the documents, each of which may draw from the generator given
    as random_state, and stops early only with evaluate_every, which is not passed.
    Inference of topics, initial draws and passes are arguments. *)
From Coq Require Import List ZArith Reals Arith Bool String.
From Verif Require Import Base RealModel VbModel SkModel EstModel.
Import ListNotations.
Open Scope nat_scope.

Inductive wrapper := ScikitLda | ScikitHdp.

(** ** Constructors, lines 591-637 and 761-805

    Names of the arguments passed on, and whether the library has them. *)
Definition lda_arguments (batchSize : Z) : list string :=
  if (batchSize =? 0)%Z
  then ["n_components"; "doc_topic_prior"; "topic_word_prior"; "learning_method"; "max_iter"; "random_state"; "verbose"; "perp_tol"]%string
  else ["n_components"; "doc_topic_prior"; "topic_word_prior"; "learning_method"; "learning_decay"; "learning_offsetfloat"; "batch_size";
        "max_iter"; "random_state"; "verbose"; "perp_tol"]%string.
Definition lda_known : list string :=
  ["n_components"; "doc_topic_prior"; "topic_word_prior"; "learning_method"; "learning_decay"; "learning_offset"; "max_iter"; "batch_size";
   "evaluate_every"; "total_samples"; "perp_tol"; "mean_change_tol"; "max_doc_update_iter"; "n_jobs"; "verbose"; "random_state"]%string.
Definition hdp_arguments (batchSize : Z) : list string :=
  ["id2word"; "T"; "K"; "max_chunks"; "chunksize"; "kappa"; "tau"; "random_state"]%string.
Definition hdp_known : list string :=
  ["id2word"; "max_chunks"; "max_time"; "chunksize"; "kappa"; "tau"; "K"; "T"; "alpha"; "gamma"; "eta"; "scale"; "var_converge";
   "outputdir"; "random_state"]%string.
(** A call with keyword arguments. *)
Definition call (known given : list string) : res unit :=
  if forallb (fun a => existsb (String.eqb a) known) given then Ok tt else Raise TypeError.
Definition construct_wrapper (w : wrapper) (batchSize : Z) : res unit :=
  match w with ScikitLda => call lda_known (lda_arguments batchSize) | ScikitHdp => call hdp_known (hdp_arguments batchSize) end.

(** ** Training of WrappedSckitLda *)
Section Fit.
  Context {X L G : Type} (init : X -> G -> L * G) (pass_ : X -> L * G -> L * G).
  (** The estimator: the latent variables, if any, the generator it was given, the number
      of passes and the attribute skip_init. *)
  Record lda := mkLda { latent : option L; gen : G; max_iter : nat; skip_init : bool }.
  Definition new_lda (g : G) (n : nat) : lda := mkLda None g n false.
  Fixpoint passes (n : nat) (x : X) (s : L * G) : L * G := match n with 0 => s | S n => passes n x (pass_ x s) end.
  (** [_init_latent_vars], lines 639-643. *)
  Definition init_latent (x : X) (s : lda) : lda :=
    if skip_init s then s else let '(l, g) := init x (gen s) in mkLda (Some l) g (max_iter s) (skip_init s).
  (** [LatentDirichletAllocation.fit]. *)
  Definition lib_fit (x : X) (s : lda) : lda * res unit :=
    let s := init_latent x s in
    match latent s with
    | None => (s, Raise AttributeError)
    | Some l => let '(l, g) := passes (max_iter s) x (l, gen s) in (mkLda (Some l) g (max_iter s) (skip_init s), Ok tt)
    end.
  (** [fit], lines 645-663; [kwargs] are the other keyword arguments with their values,
      logged and ignored. *)
  Definition fit (resume : bool) (kwargs : list (string * Z)) (x : X) (s : lda) : lda * res unit :=
    let s := if resume then mkLda (latent s) (gen s) (max_iter s) true else s in
    let '(s, r) := lib_fit x s in
    (mkLda (latent s) (gen s) (max_iter s) false, r).
  (** set_params(max_iter=n). *)
  Definition set_max_iter (n : nat) (s : lda) : lda := mkLda (latent s) (gen s) n (skip_init s).
End Fit.
Arguments lda : clear implicits.
Arguments mkLda {L G}.

(** ** Scores

    A corpus: the number type of the counts, the number of documents and the counts of
    [T] words; matrices come with their number type.  [cast] is astype. *)
Section Score.
  Context (T K : nat) (cast : dtype -> R -> R) (tiny : dtype -> R).
  Record corpus := mkCorpus { c_type : dtype; c_docs : nat; c_words : nat -> nat -> R }.
  Record matrix := mkMatrix { m_type : dtype; entries : nat -> nat -> R }.
  Definition astype (t : dtype) (m : matrix) : matrix :=
    if dtype_eqb (m_type m) t then m else mkMatrix t (fun i j => cast t (entries m i j)).

  (** se_fast.pyx line 524, 599: the logarithm of small numbers is that of the smallest. *)
  Definition safe (t : dtype) (p : R) : R := if rltb (tiny t) p then ln p else ln (tiny t).
  (** sparseScalarProductOfSafeLnDot (sparse_elementwise.py lines 250-296) and the sums of
      lines 743-745 or 912-914.  The compiled functions take arrays of one type; without
      one (lines 312-313) types must agree, and then (line 322) numbers that are not whole
      are multiplied into an array of whole numbers. *)
  Definition log_prob (x : corpus) (y c : matrix) : res R :=
    if dtype_eqb (c_type x) (m_type y) && dtype_eqb (c_type x) (m_type c)
    then match c_type x with
         | F32 | F64 =>
             Ok (vsum (c_docs x) (fun d => vsum T (fun t => c_words x d t * safe (c_type x) (vsum K (fun k => entries y d k * entries c k t)))))%R
         | _ => Raise TypeError
         end
    else Raise ValueError.
  (** X.word_count, model/common.py lines 210-212; perplexity_from_like, model/evals.py
      lines 24-27. *)
  Definition word_count (x : corpus) : R := vsum (c_docs x) (fun d => vsum T (c_words x d)).
  Definition perplexity_from_like (ll n : R) : R := exp (- ll / n)%R.
  (** Lines 742, 906 (and for gensim's model 809-810). *)
  Definition component_dists (c : matrix) : matrix :=
    mkMatrix (m_type c) (fun k t => entries c k t / vsum T (entries c k))%R.

  Context {Qs : Type} (infer : corpus -> res matrix) (split : corpus -> res (corpus * corpus)) (components : matrix).
  (** [score], lines 680-756 and 850-925. *)
  Definition score (w : wrapper) (x : corpus) (y : option matrix) (q : option Qs) (m : method) : res R :=
    if negb (is_point_estimate m) then Raise OtherError (* NotImplementedError *) else
    do (x, y) <- (match y, q with
                  | Some _, Some _ => Raise ValueError
                  | None, None =>
                      if negb (is_doc_completion m) then do y <- infer x; Ok (x, y)
                      else do (x1, x2) <- split x; do y <- infer x1; Ok (x2, y)
                  | None, Some _ => Raise ValueError
                  | Some y, None => Ok (x, y)
                  end);
    let c := component_dists components in
    let '(y, c) := match w with ScikitLda => (y, c) | ScikitHdp => (astype (c_type x) y, astype (c_type x) c) end in
    do ll <- log_prob x y c;
    Ok (if is_perplexity m then perplexity_from_like ll (word_count x) else ll).
End Score.
