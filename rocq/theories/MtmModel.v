(** * Model of the matrix-variate topic models of words and links:
    /repo/sidetopics/model/mtm3.py lines 329-596 (the models named mtm2_vb by
    run/__main__.py) and /repo/sidetopics/model/mtm2.py lines 173-432 (named mtm_vb).

    Numbers are reals without rounding; matrices are functions of their indices with
    their dimensions given beside them.  scipy.linalg.inv is the argument [inv]; the
    decision to stop early, which depends on measured perplexities, may be anything.
    The debugging output is left out, and of var_bound only that it reads the same
    places as log_likelihood. *)
From Coq Require Import List Reals ZArith Arith Bool.
From Verif Require Import Base RealModel VbModel LinkModel CtmModel.
Import ListNotations.
Open Scope nat_scope.

Section mtm.
  Variables K D T : nat.
  Variable W : mat.               (* data.words *)
  Variable L : mat.               (* data.links, D by D: row d has the links from d *)
  Variable n : vec.               (* docLens *)
  Variable inv : mat -> mat.      (* la.inv *)

  (** mtm3.py lines 303, 310, 511 and 521. *)
  Definition out_links : vec := fun d => vsum D (L d).
  Definition emit : vec := fun d => (n d + out_links d)%R.
  (** mtm3.py line 153, mtm2.py line 136. *)
  Definition mtm_A : mat := fun i j => (eye i j - 1 / INR K)%R.

  (** docVocab, lines 384-385 and 399: topic by document. *)
  Definition doc_vocab (inMeans : mat) : mat := fun k d => col_softmax D inMeans d k.

  (** The model and the query state. *)
  Record mtm := { mt_mean : vec; mt_cov : mat; mt_odc : R; mt_vocab : mat;
                  mt_out : mat; mt_outv : mat; mt_in : mat; mt_inv : mat; mt_idc : vec }.

  (** ** mtm3.py, train, lines 282-484 *)
  (** Line 335; the outDocCov of the model that was passed in is overwritten. *)
  Definition out_doc_cov : R := 10%R.
  Definition out_doc_pre : R := (1 / 10)%R.

  (** Lines 351-358: IWISH_S_SCALE is 1, IWISH_DENOM is 0.1 (lines 65-66). *)
  Definition topic_cov (mu : vec) (s : mtm) (pre : vec) : mat := fun i j =>
    ((vsum D (fun d => (out_doc_pre * (mt_out s d i - mu i)) * (mt_out s d j - mu j))
      + vsum D (fun d => (pre d * (mt_in s d i - mt_out s d i)) * (mt_in s d j - mt_out s d j))
      + (if i =? j then vsum D (fun d => mt_outv s d i) else 0)
      + (if i =? j then vsum D (fun d => mt_inv s d i) else 0)
      + 1 * eye i j) / (2 * INR D + 1 / 10))%R.
  (** Lines 363-370: IGAMMA_A and IGAMMA_B are 10 (lines 63-64). *)
  Definition in_doc_cov (s : mtm) (P : mat) : vec := fun d =>
    ((vsum K (fun k => vsum K (fun j => (mt_in s d j - mt_out s d j) * P j k) * (mt_in s d k - mt_out s d k))
      + vsum K (fun k => mt_outv s d k * P k k)
      + vsum K (fun k => mt_inv s d k * P k k)
      + 10) / (10 - 1 + INR K))%R.
  (** Lines 349-379: topicCov and inDocCov, five times in turn. *)
  Fixpoint cov_loop (mu : vec) (s : mtm) (todo : nat) (cov : mat) (idc : vec) : mat * vec :=
    match todo with
    | 0 => (cov, idc)
    | S todo =>
      let cov := topic_cov mu s (fun d => / idc d)%R in
      cov_loop mu s todo cov (in_doc_cov s (inv cov))
    end.

  (** Lines 409-414: the links' shares of the topics.  Lines 409-411 do it with the
      transposed links but with the same two factors. *)
  Definition out_tops (e dv : mat) : mat := token_weights K D L e dv.
  Definition in_tops (e dv : mat) : mat := token_weights K D (fun d l => L l d) e dv.
  Definition in_counts (e dv : mat) : vec := fun k => vsum D (fun d => in_tops e dv d k).

  (** Line 418. *)
  Definition out_varcs (odp : R) (P : mat) (idc : vec) : mat := fun d k =>
    (/ (emit d * (INR K - 1) / (2 * INR K) + (odp + / idc d) * P k k))%R.
  (** Line 421. *)
  Definition in_varcs (P : mat) (idc c : vec) : mat := fun d k =>
    (/ (c k * (INR D - 1) / (2 * INR D) + / idc d * P k k))%R.

  (** Lines 425-429. *)
  Definition out_rhs (w lo : mat) (mu : vec) (P : mat) (idc : vec) (out inm : mat) : mat := fun d k =>
    (w d k + lo d k + vsum K (fun j => P k j * mu j) / out_doc_cov
     + vsum K (fun j => inm d j * P j k) / idc d
     + emit d * (vsum K (fun j => out d j * mtm_A j k) - vsoftmax K (out d) k))%R.
  (** Lines 442-443.  What is inverted is positive definite (C155), so the LinAlgError of
      line 444 does not come up. *)
  Definition out_lhs (P : mat) (idc : vec) (d : nat) : mat := fun i j =>
    ((out_doc_pre + / idc d) * P i j + emit d * mtm_A i j)%R.
  Definition new_out (P : mat) (idc : vec) (r : mat) : mat := fun d k =>
    vsum K (fun j => inv (out_lhs P idc d) k j * r d j)%R.

  (** Lines 386-388. *)
  Definition mtm_F (inm dv : mat) : mat := fun d k =>
    (5 / 10 * inm d k - (5 / 10 / INR D) * vsum D (fun j => inm j k) - dv k d)%R.
  (** Lines 432-437, as it is when line 438 reads it: line 439 then only changes what is
      not read again. *)
  Definition in_rhs (P : mat) (idc : vec) (it : mat) (c : vec) (dv out inm : mat) : mat := fun d k =>
    (vsum K (fun j => (/ idc d * out d j) * P j k)
     + (- vsum D (fun j => inm j k) * c k) / (4 * INR D)
     + it d k
     + c k * mtm_F inm dv d k
     + c k * inm d k / (4 * INR D))%R.
  (** Lines 431 and 438. *)
  Definition in_lhs (P : mat) (idc c : vec) (d : nat) : mat := fun i j =>
    (/ idc d * P i j + (INR D - 1) / (2 * INR D) * (if i =? j then c i else 0))%R.
  Definition new_in (P : mat) (idc c : vec) (r : mat) : mat := fun d k =>
    vsum K (fun j => inv (in_lhs P idc c d) k j * r d j)%R.

  (** VocabPrior, line 53. *)
  Definition mtm_beta : R := (1 / 100)%R.

  (** One turn of the loop, lines 340-451.  np.squeeze makes the length and the number of
      links of a single document numbers, which line 418 cannot index. *)
  Definition mtm_iter (s : mtm) : res mtm :=
    let mu := col_mean D (mt_out s) in
    let '(cov, idc) := cov_loop mu s 5 (mt_cov s) (mt_idc s) in
    let P := inv cov in
    let e := exp_means K (mt_out s) in
    let vocab := vocab_update K D T W mtm_beta e (mt_vocab s) in
    let dv := doc_vocab (mt_in s) in
    let w := token_weights K T W e vocab in
    let it := in_tops e dv in
    let c := in_counts e dv in
    let lo := out_tops e dv in
    if D =? 1 then Raise IndexError else
    Ok {| mt_mean := mu; mt_cov := cov; mt_odc := out_doc_cov; mt_vocab := vocab;
          mt_out := new_out P idc (out_rhs w lo mu P idc (mt_out s) (mt_in s));
          mt_outv := out_varcs out_doc_pre P idc;
          mt_in := new_in P idc c (in_rhs P idc it c dv (mt_out s) (mt_in s));
          mt_inv := in_varcs P idc c; mt_idc := idc |}.

  (** ** log_likelihood, lines 571-596 *)
  (** colwise_softmax gives the documents' distributions document by topic; the compiled
      product (se_fast.pyx lines 486-530 and 610-625, without bounds checks) reads them as
      topic by document: place (k, l) of an array of D rows of K numbers is its number
      k * K + l. *)
  Definition read_flat (m : mat) (k l : nat) : res R :=
    let i := k * K + l in
    if i <? D * K then Ok (m (i / K) (i mod K)) else Raise MemoryOOB.
  Fixpoint sum_reads (f : nat -> res R) (ks : list nat) : res R :=
    match ks with
    | [] => Ok 0%R
    | k :: ks => do x <- f k; do r <- sum_reads f ks; Ok (x + r)%R
    end.
  (** The logarithm with a floor, lines 514 and 524; [tiny_float] is DBL_MIN or FLT_MIN. *)
  Variable tiny_float : R.
  Definition safe_ln (x : R) : R := if rltb tiny_float x then ln x else ln tiny_float.
  Definition word_likely (out vocab : mat) : R :=
    vsum D (fun d => vsum T (fun t => W d t * safe_ln (vsum K (fun k => vsoftmax K (out d) k * vocab k t))))%R.
  (** One stored link: those that are not stored are not read. *)
  Definition link_likely1 (out inm : mat) (d l : nat) : res R :=
    if Req_EM_T (L d l) 0 then Ok 0%R
    else
      do p <- sum_reads (fun k => do x <- read_flat (col_softmax D inm) k l; Ok (vsoftmax K (out d) k * x)%R) (seq 0 K);
      Ok (L d l * safe_ln p)%R.
  Definition link_likely (out inm : mat) : res R :=
    sum_reads (fun d => sum_reads (link_likely1 out inm d) (seq 0 D)) (seq 0 D).
  (** mtm2.py lines 401-428 are the same with means for both. *)
  Definition mtm_log_likelihood (vocab out inm : mat) : res R :=
    do l <- link_likely out inm; Ok (word_likely out vocab + l)%R.

  (** Lines 337-479.  Every [logFrequency]-th iteration measures the bound and the
      likelihood (lines 455-470); [stop] decides, given the iteration, whether to break. *)
  Definition logs (logFrequency itr : nat) : bool := (0 <? logFrequency) && (itr mod logFrequency =? 0).
  Fixpoint mtm_loop (logFrequency : nat) (stop : nat -> mtm -> bool) (itr todo : nat) (s : mtm) : res mtm :=
    match todo with
    | 0 => Ok s
    | S todo =>
      do s <- mtm_iter s;
      if logs logFrequency itr then
        do _ <- mtm_log_likelihood (mt_vocab s) (mt_out s) (mt_in s);
        if stop itr s then Ok s else mtm_loop logFrequency stop (S itr) todo s
      else mtm_loop logFrequency stop (S itr) todo s
    end.
  (** Lines 329-335 and 481-484. *)
  Definition mtm_start (s : mtm) : mtm :=
    {| mt_mean := mt_mean s; mt_cov := mt_cov s; mt_odc := out_doc_cov; mt_vocab := mt_vocab s;
       mt_out := mt_out s; mt_outv := mt_outv s; mt_in := mt_in s; mt_inv := mt_inv s; mt_idc := fun _ => 1%R |}.
  Definition mtm_train (logFrequency : nat) (stop : nat -> mtm -> bool) (iterations : nat) (s : mtm) : res mtm :=
    mtm_loop logFrequency stop 0 iterations (mtm_start s).

  (** ** mtm3.py, query, lines 487-568 *)
  (** Lines 543-546 and 549-550. *)
  Definition q_rhs (w : mat) (mu : vec) (odc : R) (P out : mat) : mat := fun d k =>
    (w d k + vsum K (fun j => P k j * mu j) / odc
     + emit d * (vsum K (fun j => out d j * mtm_A j k) - vsoftmax K (out d) k))%R.
  Definition q_lhs (odc : R) (P : mat) (d : nat) : mat := fun i j => (1 / odc * P i j + emit d * mtm_A i j)%R.
  Definition q_out (odc : R) (P r : mat) : mat := fun d k => vsum K (fun j => inv (q_lhs odc P d) k j * r d j)%R.
  (** Lines 535-550. *)
  Definition mtm_query_iter (s : mtm) : res mtm :=
    let P := inv (mt_cov s) in
    let e := exp_means K (mt_out s) in
    let w := token_weights K T W e (mt_vocab s) in
    if D =? 1 then Raise IndexError else
    Ok {| mt_mean := mt_mean s; mt_cov := mt_cov s; mt_odc := mt_odc s; mt_vocab := mt_vocab s;
          mt_out := q_out (mt_odc s) P (q_rhs w (mt_mean s) (mt_odc s) P (mt_out s));
          mt_outv := out_varcs (1 / mt_odc s) P (mt_idc s);
          mt_in := mt_in s; mt_inv := mt_inv s; mt_idc := mt_idc s |}.
  (** Lines 530-568. *)
  Fixpoint mtm_query (logFrequency : nat) (stop : nat -> mtm -> bool) (itr todo : nat) (s : mtm) : res mtm :=
    match todo with
    | 0 => Ok s
    | S todo =>
      do s <- mtm_query_iter s;
      if logs logFrequency itr then
        do _ <- mtm_log_likelihood (mt_vocab s) (mt_out s) (mt_in s);
        if stop itr s then Ok s else mtm_query logFrequency stop (S itr) todo s
      else mtm_query logFrequency stop (S itr) todo s
    end.

  (** ** mtm2.py, train, lines 173-343 *)
  (** numpy.isfortran of the transpose of an array of D rows of K numbers: neither
      dimension may be one. *)
  Definition transposed_is_fortran : bool := (1 <? D) && (1 <? K).
  (** The loop gets as far as line 283, where sparseScalarQuotientOfDot refuses docVocab,
      which line 273 made by transposing (sparse_elementwise.py line 149).  With one
      document np.cov (line 244) gives NaNs, which la.inv (line 252) refuses, or else
      line 297 cannot index the length of the document.  The vocabulary, which lines
      269-271 change in place, is the caller's; VocabPrior is 0.1 (line 50). *)
  Definition mtm2_train (fast : bool) (iterations : nat) (means vocab : mat) : mat * res mat :=
    match iterations with
    | 0 => (vocab, Ok means)
    | S _ =>
      if negb fast && (D <? 2) then (vocab, Raise ValueError) else
      let vocab' := vocab_update K D T W (1 / 10) (exp_means K means) vocab in
      if transposed_is_fortran then (vocab', Raise AssertionError) else
      if D =? 1 then (vocab', Raise IndexError) else
      (* lines 301-316 are not reached: fewer than two topics are refused by line 117 *)
      (vocab', Raise OtherError)
    end.

  (** ** mtm2.py, query, lines 345-398: the arrays that were passed in are returned.  The
      weights V are those of the means before the loop, as expMeansOut (line 368) is not
      computed again. *)
  Record mquery := { mq_means : mat; mq_same : bool; mq_cur : mat }.
  Definition m2_rhs (V : mat) (mu : vec) (P means : mat) : mat := fun d k =>
    (V d k + (n d * vsum K (fun j => means d j * mtm_A j k) + vsum K (fun j => P k j * mu j))
     - n d * vsoftmax K (means d) k)%R.
  Definition m2_lhs (P : mat) (d : nat) : mat := fun i j => (P i j + n d * mtm_A i j)%R.
  (** Lines 382-393: the softmax is written into [means] before line 390 or 393. *)
  Definition mtm2_query_iter (fast : bool) (V : mat) (mu : vec) (P varcs : mat) (s : mquery) : mquery :=
    let r := m2_rhs V mu P (mq_cur s) in
    let soft := fun d => vsoftmax K (mq_cur s d) in
    let obj := if mq_same s then soft else mq_means s in
    let cur := if fast then (fun d k => varcs d k * r d k)%R
               else (fun d k => vsum K (fun j => inv (m2_lhs P d) k j * r d j))%R in
    let same := mq_same s && negb fast in
    {| mq_means := if same then cur else obj; mq_same := same; mq_cur := cur |}.
  Definition mtm2_query (fast : bool) (iterations : nat) (mu : vec) (cov vocab means : mat) : res mat :=
    let P := inv cov in
    if D =? 1 then Raise IndexError else
    let varcs := fun d k => (1 / (n d * (INR K - 1) / INR K + P k k))%R in
    let V := token_weights K T W (exp_means K means) vocab in
    Ok (mq_means (Nat.iter iterations (mtm2_query_iter fast V mu P varcs)
                           {| mq_means := means; mq_same := true; mq_cur := means |})).
End mtm.
