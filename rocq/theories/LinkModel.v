(** * Model of link prediction: /repo/sidetopics/model/rtm.py lines 789-901,
    lro_vb.py 277-363, sim_based_rec.py 149-203 and 251-448, mtm3.py 682-778 and
    mtm2.py 522-592.

    Numbers are reals without rounding, apart from the function [store], the
    rounding of a value when it is put into an array of the model's dtype.  NaN,
    which division by a zero norm gives, is [None].  Matrices are functions of
    their indices with their dimensions given beside them. *)
From Coq Require Import List Reals ZArith Arith Bool.
From Verif Require Import Base RealModel VbModel.
Import ListNotations.
Open Scope nat_scope.

(** ** _links_up_to_csr, rtm.py lines 799-815: a row of the CSR matrix is the list
       of its column indices; the loop of lines 808-811. *)
Fixpoint links_up_to_row (d : nat) (row : list nat) : list nat :=
  match row with
  | [] => []
  | x :: r => if d <=? x then [] else x :: links_up_to_row d r
  end.
Definition links_up_to (d : nat) (links : list (list nat)) : res (list nat) :=
  do row <- get_ links d; Ok (links_up_to_row d row).
(** The pairs that the loops over d of _infer_weights (lines 527-542) and var_bound
    (lines 759-769) visit. *)
Definition visited_links (links : list (list nat)) : list (nat * nat) :=
  flat_map (fun d => match links_up_to d links with Ok l => map (pair d) l | Raise _ => [] end)
           (seq 0 (length links)).

(** ** Numbers that may be NaN *)
Definition num : Type := option R.
Definition nlt (x y : num) : bool :=
  match x, y with Some a, Some b => rltb a b | _, _ => false end.
Definition nge (x y : num) : bool :=
  match x, y with Some a, Some b => rleb b a | _, _ => false end.
(** x / y.  Simplified: division by zero is NaN; a non-zero number divided by zero
    would be infinite, but here x is the product of the vectors whose norms y is
    made of. *)
Definition ndiv (x y : R) : num := if Req_EM_T y 0 then None else Some (x / y)%R.
(** min() of a Python list. *)
Definition py_min (l : list num) : res num :=
  match l with
  | [] => Raise ValueError
  | x :: r => Ok (fold_left (fun m y => if nlt y m then y else m) r x)
  end.

(** ** The loops shared by the modules.  [score src dst] is the expression that is
       evaluated for one pair of documents, [nsrc] and [ndst] the numbers of rows. *)
Section Predict.
  Context (nsrc ndst : nat) (store : R -> R).

  (** lro_vb.py lines 302-309, sim_based_rec.py 285-295 and 311-319, mtm3.py
      714-723, mtm2.py 539-546, rtm.py 842-847.  [none] is the value for a document
      without links. *)
  Definition min_link_probs (score : nat -> nat -> num) (none : R) (links : list (list nat)) (subset : list nat)
    : res (list num) :=
    mapM (fun src =>
      do ls <- get_ links src;
      do probs <- mapM (fun dst => if (src <? nsrc) && (dst <? ndst) then Ok (score src dst) else Raise IndexError) ls;
      do m <- match probs with [] => Ok (Some none) | _ => py_min probs end;
      Ok (option_map store m)) subset.

  (** lro_vb.py lines 347-363, sim_based_rec.py 373-392 and 424-448, mtm3.py
      760-778, mtm2.py 574-592, rtm.py 883-901.  A row of the result is the list of
      its stored columns and values. *)
  Definition link_probs (score : nat -> nat -> num) (margin : R) (mins : list num) (subset : list nat)
    : res (list (list (nat * num))) :=
    mapM (fun '(outRow, src) =>
      if src <? nsrc then
        do m <- get_ mins outRow;
        let relevant := filter (fun dst => nge (score src dst) (option_map (fun x => x - margin)%R m)) (seq 0 ndst) in
        Ok (map (fun dst => (dst, option_map store (score src dst))) relevant)
      else Raise IndexError) (combine (seq 0 (length subset)) subset).
End Predict.

(** The margin of lines 351, 380, 436 and 766. *)
Definition tolerance : R := (1 / 10 ^ 9)%R.
Definition dot (n : nat) (x y : vec) : R := vsum n (fun k => x k * y k)%R.

(** ** lro_vb.py: lines 307 and 350. *)
Definition lro_min (K : nat) (scale : R) (tops offs : mat) (src dst : nat) : num :=
  Some (scale * dot K (tops src) (offs dst))%R.
Definition lro_all (K : nat) (scale : R) (tops offs : mat) (src dst : nat) : num :=
  Some (scale * dot K (offs dst) (tops src))%R.

(** ** sim_based_rec.py *)
(** np.reciprocal: for arrays of integers it is 0 except for 1. *)
Definition recip_float (x : R) : R := (/ x)%R.
Definition recip_int (x : R) : R := if Req_EM_T x 1 then 1%R else 0%R.

(** train with TF-IDF, lines 176-189. *)
Definition doc_count (D : nat) (words : mat) (t : nat) : R :=
  vsum D (fun d => if Req_EM_T (words d t) 0 then 0%R else 1%R).
Definition idf (D : nat) (words : mat) (t : nat) : R := ln (INR D / (doc_count D words t + 1))%R.
Definition tfidf (recip : R -> R) (D T : nat) (words : mat) : mat :=
  fun d t => (recip (vsum T (words d)) * words d t * idf D words t)%R.

(** csr_row_norms, lines 395-403. *)
Definition row_norm (T : nat) (reps : mat) (d : nat) : R := sqrt (vsum T (fun t => Rabs (reps d t * reps d t))).

(** Lines 291-293 and 376-378. *)
Definition tfidf_min (T : nat) (src_reps dst_reps : mat) (src dst : nat) : num :=
  ndiv (dot T (src_reps src) (dst_reps dst)) (row_norm T src_reps src * row_norm T dst_reps dst).
Definition tfidf_all (T : nat) (src_reps dst_reps : mat) (src dst : nat) : num :=
  match ndiv (dot T (dst_reps dst) (src_reps src)) (row_norm T dst_reps dst) with
  | Some x => ndiv x (row_norm T src_reps src)
  | None => None
  end.

(** Line 196. *)
Definition lda_reps (tops : mat) : mat := fun d k => sqrt (tops d k).
Definition SQRT_TWO : R := (1414213562 / 10 ^ 9)%R.
Definition tiny : R := (1 / 10 ^ 30)%R.
(** Lines 316-317 and 429-434. *)
Definition sim_min (K : nat) (src_reps dst_reps : mat) (src dst : nat) : num :=
  Some (SQRT_TWO / Rmax (sqrt (vsum K (fun k => (src_reps src k - dst_reps dst k) ^ 2))) tiny)%R.
Definition sim_all (K : nat) (src_reps dst_reps : mat) (src dst : nat) : num :=
  let norm := sqrt (vsum K (fun k => (src_reps src k - dst_reps dst k) * (src_reps src k - dst_reps dst k)))%R in
  Some (SQRT_TWO / (if rltb norm tiny then tiny else norm))%R.

(** ** mtm3.py; mtm2.py is the same with inMeans = outMeans. *)
Definition vmax (n : nat) (v : vec) : R :=
  match map v (seq 0 n) with [] => 0%R | x :: r => fold_left Rmax r x end.
(** softmax, lines 682-687. *)
Definition vsoftmax (K : nat) (v : vec) : vec :=
  let e := fun k => exp (v k - vmax K v) in
  fun k => (e k / vsum K e)%R.
(** Lines 709-710 and 716-722. *)
Definition mtm_min (K D : nat) (outMeans inMeans : mat) (src dst : nat) : num :=
  let col_maxes := fun k => vmax D (fun d => inMeans d k) in
  let lse_at_k := fun k => vsum D (fun d => exp (inMeans d k - col_maxes k)) in
  Some (dot K (vsoftmax K (outMeans src)) (fun k => exp (inMeans dst k - col_maxes k) / lse_at_k k)%R).
(** colwise_softmax, sigmoid_utils.py lines 28-40, and mtm3.py lines 757-765. *)
Definition col_softmax (D : nat) (m : mat) : mat := fun d k => vsoftmax D (fun d => m d k) d.
Definition mtm_all (K D : nat) (outMeans inMeans : mat) (src dst : nat) : num :=
  Some (dot K (col_softmax D inMeans dst) (vsoftmax K (outMeans src))).

(** ** rtm.py: the score of lines 846-847 and 884-885; [probit] is _probit_inplace,
       the matrices have K+1 columns. *)
Definition rtm_score (probit : R -> R) (K : nat) (weights : vec) (means : mat) (d l : nat) : num :=
  Some (probit (vsum (S K) (fun k => means d k * means l k * weights k)%R)).
(** min_link_probs, lines 836-850: the minima and the new contents of topicDists. *)
Definition rtm_min_link_probs (probit : R -> R) (K D : nat) (weights docLens prior : vec) (none : R)
    (topicDists : mat) (links : list (list nat)) : res (list num * mat) :=
  let means := params_to_means docLens topicDists prior in
  do mins <- min_link_probs D D (fun x => x) (rtm_score probit K weights means) none links (seq 0 D);
  Ok (mins, means_to_params docLens means prior).
(** link_probs, lines 872-901. *)
Definition rtm_link_probs (probit : R -> R) (K D : nat) (weights docLens prior : vec)
    (topicDists : mat) (mins : list num) : res (list (list (nat * num)) * mat) :=
  let means := params_to_means docLens topicDists prior in
  do rows <- link_probs D D (fun x => x) (rtm_score probit K weights means) 0 mins (seq 0 D);
  Ok (rows, means_to_params docLens means prior).
