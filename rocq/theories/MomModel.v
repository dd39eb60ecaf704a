(** * Model of the membership sampler of the mixture of multinomials,
    model/mom_gibbs.py, and of the query that runs it.

    Floating point numbers are real numbers.  A document is the vector of its word
    counts; [a] is the almostZero of safe_log (overflow_safe.py lines 192-199).
    GibbsModel has the loop of [train] and the bookkeeping alone. *)
From Coq Require Import List ZArith Reals Arith Bool.
From Verif Require Import Base RealModel VbModel GibbsModel.
Import ListNotations.
Open Scope nat_scope.

(** safe_log, overflow_safe.py lines 184-199, one entry. *)
Definition safe_ln (a x : R) : R := if rleb a x then ln x else ln a.

(** The memberships, one row for each document. *)
Definition members := nat -> vec.
Definition one_hot (k : nat) : vec := fun j => if j =? k then 1%R else 0%R.
Definition set_row (M : members) (d : nat) (v : vec) : members := fun d' => if d' =? d then v else M d'.

(** numpy's multinomial(1, p): the component whose part of (0,1] has the number [r];
    the components come one after the other.  numpy draws otherwise, by binomial
    draws, from the same distribution. *)
Fixpoint pick (p : vec) (r : R) (k n : nat) : nat :=
  match n with
  | O => k
  | S n => if rleb r (vsum (S k) p) then k else pick p r (S k) n
  end.
Definition multinomial_one (K : nat) (p : vec) (r : R) : nat := pick p r 0 (K - 1).

Section Sampler.
  Context (a : R) (K T : nat) (phi : nat -> vec) (W : list vec).
  Notation doc d := (nth d W (fun _ => 0%R)).

  (** Lines 192-193 and 195, safe_log(prior): the logarithms of the parts of [p1].
      With a sum of zero the divisions give NaN for zero, which safe_log takes for
      something small, and infinity for the others; positive infinity makes the
      probabilities NaN, and the draw of line 200 raises. *)
  Definition log_prior (p1 : vec) : res vec :=
    let s := vsum K p1 in
    if Req_EM_T s 0 then
      if existsb (fun k => rltb 0 (p1 k)) (seq 0 K) then Raise ValueError else Ok (fun _ => ln a)
    else Ok (fun k => safe_ln a (p1 k / s)%R).

  (** Line 188, one entry. *)
  Definition word_score (d k : nat) : R := vsum T (fun t => doc d t * safe_ln a (phi k t))%R.

  (** Lines 191-202, document [d]: [p1] is priorNum without the document (191), then
      the logarithms of the weights (195), less their greatest (196), less their
      logsumexp (197), and the exponentials of these (199). *)
  Definition mom_visit (d : nat) (r : R) (st : members * vec) : res (members * vec) :=
    let '(M, priorNum) := st in
    let p1 := fun k => (priorNum k - M d k)%R in
    do lp <- log_prior p1;
    let s := fun k => (word_score d k + lp k)%R in
    do mx <- max_of (map s (seq 0 K));
    let p := fun k => exp (s k - mx - ln (vsum K (fun j => exp (s j - mx))))%R in
    let M' := set_row M d (one_hot (multinomial_one K p r)) in
    Ok (M', fun k => (p1 k + M' d k)%R).

  (** Lines 183-204; the numbers [u d] are for the draws. *)
  Definition prior_num (alpha : vec) (M : members) : vec := fun k => (vsum (length W) (fun d => M d k) + alpha k - 1)%R.
  Definition sample_rows (alpha : vec) (u : nat -> R) (M : members) : res members :=
    do st <- fold_left (fun rs d => do st <- rs; mom_visit d (u d) st) (seq 0 (length W)) (Ok (M, prior_num alpha M));
    Ok (fst st).

  (** Lines 325-334: the sum of the samples and their number. *)
  Fixpoint query_rows (alpha : vec) (burnIn thinning : Z) (u : nat -> nat -> R) (n itr : nat) (M acc : members) (count : nat)
      : res (members * nat) :=
    match n with
    | O => Ok (acc, count)
    | S n =>
        do M <- sample_rows alpha (u itr) M;
        do t <- is_sampling_iteration (Z.of_nat itr) burnIn thinning;
        if t then query_rows alpha burnIn thinning u n (S itr) M (fun d k => acc d k + M d k)%R (S count)
        else query_rows alpha burnIn thinning u n (S itr) M acc count
    end.
  (** query, lines 300-334; without samples the result is NaN, here [None]. *)
  Definition mom_query_rows (alpha : vec) (plan : Z * Z * Z) (u : nat -> nat -> R) (M : members) : res (option members) :=
    let '(iterations, burnIn, thinning) := plan in
    do (acc, count) <- query_rows alpha burnIn thinning u (Z.to_nat iterations) 0 M (fun _ _ => 0%R) 0;
    Ok (if count =? 0 then None else Some (fun d k => (acc d k / INR count)%R)).
End Sampler.

(** newModelAtRandom, lines 79-80: the prior of [K] topics when none is given. *)
Definition default_prior (K : nat) : vec := fun _ => (5 / INR K + 5 / 10)%R.
