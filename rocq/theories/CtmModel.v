(** * Model of the correlated topic model, /repo/sidetopics/model/ctm_bohning.py
    lines 94-366, and of the queries of the side topic model,
    stm_yv_bohning.py lines 347-414.

    Numbers are reals without rounding; matrices are functions of their indices
    with their dimensions given beside them.  scipy.linalg.inv is the argument
    [inv]; the decisions to stop early, which depend on a measured bound or
    perplexity, are functions that may be anything.  The branch of
    USE_NIW_PRIOR, which is False (line 46), the debugging output and var_bound
    are left out. *)
From Coq Require Import List Reals ZArith Arith Bool.
From Verif Require Import Base RealModel VbModel LinkModel.
Import ListNotations.
Open Scope nat_scope.

(** np.eye. *)
Definition eye : mat := fun i j => if i =? j then 1%R else 0%R.

Section ctm.
  Variables K D T : nat.
  Variable W : mat.               (* data.words *)
  Variable n : vec.               (* docLens, line 155: the row sums of W *)
  Variable beta : R.              (* vocabPrior *)
  Variable inv : mat -> mat.      (* la.inv *)

  (** Line 134; line 118 of stm_yv_bohning.py takes the same matrix. *)
  Definition bohning : mat := fun i j => (5 / 10 * (eye i j - 1 / (INR K + 1)))%R.

  (** Lines 252 and 344: np.exp(means - means.max(axis=1)[:,np.newaxis]). *)
  Definition exp_means (m : mat) : mat := fun d k => exp (m d k - vmax K (m d)).
  (** sparseScalarQuotientOfDot, se_fast.pyx lines 250-292: each stored count over the
      product of the rows; what is not stored is zero (the traversal is [range_kernel]
      in VecModel.v). *)
  Definition quotient (e v : mat) : mat := fun d t => (W d t / vsum K (fun k => e d k * v k t))%R.
  (** Lines 256-258; normalizerows_ip is array_utils.py lines 12-18. *)
  Definition vocab_counts (e v : mat) : mat :=
    fun k t => (v k t * vsum D (fun d => quotient e v d t * e d k))%R.
  Definition vocab_update (e v : mat) : mat := norm_rows T (fun k t => vocab_counts e v k t + beta)%R.
  (** Lines 261-262 and 345-346: the variable V. *)
  Definition token_weights (e v : mat) : mat :=
    fun d k => (e d k * vsum T (fun t => quotient e v d t * v k t))%R.

  (** Lines 274-276 and 349-351; [prior] is the term that the prior on the means adds. *)
  Definition rhs (prior V means : mat) : mat := fun d k =>
    (V d k + (n d * vsum K (fun j => means d j * bohning j k) + prior d k) - n d * vsoftmax K (means d) k)%R.
  (** Line 281: la.inv(isigT + docLens[d] * A).dot(rhs[d, :]). *)
  Definition lhs (isigT : mat) (d : nat) : mat := fun i j => (isigT i j + n d * bohning i j)%R.
  Definition new_means (isigT r : mat) : mat := fun d k =>
    vsum K (fun j => inv (lhs isigT d) k j * r d j)%R.

  (** ** train, lines 173-308 *)
  Record ctm := { c_mean : vec; c_sigT : mat; c_vocab : mat; c_means : mat; c_exp : mat; c_varcs : mat }.

  (** isigT.dot(topicMean), the same for every document. *)
  Definition ctm_prior (isigT : mat) (mu : vec) : mat := fun _ k => vsum K (fun j => isigT k j * mu j)%R.

  (** np.cov(means.T) + np.diag(varcs.mean(axis=0)), lines 233-234.  Nothing reads it
      after line 244 has replaced sigT by the identity. *)
  Definition col_mean (m : mat) : vec := fun k => (vsum D (fun d => m d k) / INR D)%R.
  Definition cov_estimate (means varcs : mat) : mat := fun i j =>
    (vsum D (fun d => (means d i - col_mean means i) * (means d j - col_mean means j)) / (INR D - 1)
     + (if i =? j then col_mean varcs i else 0))%R.

  (** One turn of the loop, lines 215-281.  With fewer than two documents np.cov gives
      NaNs, which the la.inv of line 241 refuses; for more its argument is positive
      definite.  np.squeeze (line 155) makes the length of a single document a number,
      which line 270 cannot index.  Line 270 uses the diagonal of sigT. *)
  Definition train_iter (fast : bool) (s : ctm) : res ctm :=
    if negb fast && (D <? 2) then Raise ValueError else
    let mu := col_mean (c_means s) in
    let isigT := inv eye in
    let e := exp_means (c_means s) in
    let vocab := vocab_update e (c_vocab s) in
    let V := token_weights e vocab in
    if D =? 1 then Raise IndexError else
    let varcs := fun d k => (/ (n d * (INR K - 1) / INR K + eye k k))%R in
    let r := rhs (ctm_prior isigT mu) V (c_means s) in
    let means := if fast then (fun d k => varcs d k * r d k)%R else new_means isigT r in
    Ok {| c_mean := mu; c_sigT := eye; c_vocab := vocab; c_means := means; c_exp := e; c_varcs := varcs |}.

  (** Lines 215-303: [stop] is the decision of lines 285-303. *)
  Fixpoint train_loop (fast : bool) (stop : nat -> ctm -> bool) (itr todo : nat) (s : ctm) : res ctm :=
    match todo with
    | 0 => Ok s
    | S todo =>
      do s <- train_iter fast s;
      if stop itr s then Ok s else train_loop fast stop (S itr) todo s
    end.
  Definition ctm_train (fast : bool) (stop : nat -> ctm -> bool) (iterations : nat) (s : ctm) : res ctm :=
    train_loop fast stop 0 iterations s.

  (** ** query, lines 310-366.  The arrays of the query state that was passed in are
      what is returned; the variable [means] is at first the same array, until
      line 354 gives it a new one. *)
  Record qarrays := { q_means : mat; q_exp : mat; q_varcs : mat }.   (* the caller's arrays *)
  Record qstate := { s_arrays : qarrays; s_same : bool; s_means : mat }.

  (** Lines 344-356. *)
  Definition query_iter (fast : bool) (isigT vocab prior varcs : mat) (s : qstate) : qstate :=
    let e := exp_means (s_means s) in
    let V := token_weights e vocab in
    let r := rhs prior V (s_means s) in
    (* rowwise_softmax(means, out=means) *)
    let soft := fun d => vsoftmax K (s_means s d) in
    let obj := if s_same s then soft else q_means (s_arrays s) in
    let means := if fast then (fun d k => varcs d k * r d k)%R else new_means isigT r in
    let same := s_same s && negb fast in
    {| s_arrays := {| q_means := if same then means else obj; q_exp := e; q_varcs := q_varcs (s_arrays s) |};
       s_same := same; s_means := means |}.

  (** Lines 343-364: [perp] is the perplexity, which depends on the means alone. *)
  Fixpoint query_loop (fast : bool) (perp : mat -> R) (isigT vocab prior varcs : mat) (itr todo : nat) (lastPerp : R)
           (s : qstate) : qstate :=
    match todo with
    | 0 => s
    | S todo =>
      let s := query_iter fast isigT vocab prior varcs s in
      let p := perp (s_means s) in
      if (20 <? itr) && rltb (lastPerp - p) 1 then s
      else query_loop fast perp isigT vocab prior varcs (S itr) todo p s
    end.

  (** The model is returned as it was.  Line 338 cannot index the length of a single
      document. *)
  Definition ctm_query (fast : bool) (perp : mat -> R) (lastPerp : R) (iterations : nat) (mu : vec) (sigT vocab : mat)
             (q : qarrays) : res qarrays :=
    let isigT := inv sigT in
    if D =? 1 then Raise IndexError else
    let varcs := fun d k => (1 / (n d * (INR K - 1) / INR K + isigT k k))%R in
    Ok (s_arrays (query_loop fast perp isigT vocab (ctm_prior isigT mu) varcs 0 iterations lastPerp
                             {| s_arrays := q; s_same := true; s_means := q_means q |})).

  (** ** query of stm_yv_bohning.py, lines 347-414: at least 100 iterations (line 372);
      the variances are written into the caller's array; X.dot(A.T).dot(isigT) is the
      term of the prior. *)
  Definition stm_mean (F : nat) (X A : mat) : mat := fun d k => vsum F (fun f => X d f * A k f)%R.
  Definition stm_prior (isigT mu : mat) : mat := fun d k => vsum K (fun j => mu d j * isigT j k)%R.
  Definition stm_query (perp : mat -> R) (lastPerp : R) (iterations F : nat) (X A sigT vocab : mat) (q : qarrays)
    : res qarrays :=
    let isigT := inv sigT in
    if D =? 1 then Raise IndexError else
    let varcs := fun d k => (1 / (n d * (INR K - 1) / INR K + isigT k k))%R in
    let r := s_arrays (query_loop false perp isigT vocab (stm_prior isigT (stm_mean F X A)) varcs 0 (Nat.max iterations 100)
                                  lastPerp {| s_arrays := q; s_same := true; s_means := q_means q |}) in
    Ok {| q_means := q_means r; q_exp := q_exp r; q_varcs := varcs |}.
End ctm.
