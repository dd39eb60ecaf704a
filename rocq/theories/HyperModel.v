(** * Model of what /repo/sidetopics/model/rtm.py learns besides topics: the weights of the
    link predictor (lines 481-550), the prior over topics (lines 579-645, also in
    lda_vb_python.py lines 663-729), and of what its models and query states start from
    (lines 57-130); and of the estimate of priors in lda_gibbs_fast.pyx lines 52-120.

    Numbers are reals without rounding; where the code divides by what can be zero they
    are the extended numbers of FakeModel.v.  The digamma function and the normal density
    and distribution functions are arguments. *)
From Coq Require Import List Reals ZArith Arith Bool.
From Verif Require Import Base RealModel VbModel LinkModel FakeModel.
Import ListNotations.
Open Scope nat_scope.

Definition l1 (n : nat) (v : vec) : R := vsum n (fun i => Rabs (v i)).
Definition set_at (v : vec) (i : nat) (x : R) : vec := fun j => if j =? i then x else v j.

(** ** _infer_weights, lines 481-550 *)
Section Weights.
  Context (pdf probit : R -> R) (K : nat).
  Context (links : list (list nat)) (means : mat) (prior : vec) (negCount reg : R).

  (** Lines 506-507. *)
  Definition pseudo_doc : vec := set_at (fun k => prior k * prior k / vsum (S K) prior)%R K 1%R.
  (** 1E-50. *)
  Definition least_prob : R := (/ IZR (10 ^ 50))%R.
  Definition w_dot (w x : vec) : R := vsum (S K) (fun k => x k * w k)%R.
  (** Lines 512-514. *)
  Definition pseudo_error (w : vec) : vec :=
    let param := w_dot w pseudo_doc in
    fun k => (- negCount * (pdf param / (probit param + least_prob)) * pseudo_doc k)%R.
  (** Lines 533-537, for one link. *)
  Definition link_slope (param : R) : R :=
    (pdf param / (if Req_EM_T (probit param) 0 then least_prob else probit param))%R.
  (** Lines 527-542.  The check for infinite scores is left out: numbers are finite. *)
  Definition link_errors (w : vec) : vec := fun k =>
    rsum (map (fun '(d, p) => link_slope (w_dot w (fun j => means d j * means p j)) * (means d k * means p k))%R (visited_links links)).
  (** Lines 517-523: t_0 is 5 and kappa 0.75. *)
  Definition step_size (t : nat) : R := Rpower (5 + INR t) (- (75 / 100)).
  Definition weight_grad (w : vec) : vec := fun k => (reg * w k + pseudo_error w k + link_errors w k)%R.
  (** Lines 545-547. *)
  Definition weight_step (t : nat) (w : vec) : vec := fun k => (w k * (1 - step_size t) + weight_grad w k * step_size t)%R.
  (** Lines 511-550. *)
  Fixpoint weight_loop (n t : nat) (w : vec) : vec :=
    match n with
    | 0 => w
    | S n =>
      let w' := weight_step t w in
      if rltb (l1 (S K) (fun k => w' k - w k)%R) (1 / 100 / INR K) then w' else weight_loop n (S t) w'
    end.
  Definition infer_weights (w : vec) : vec := weight_loop 100 0 w.
End Weights.

(** ** _updateTopicHyperParamsFromMeans, rtm.py lines 579-645, lda_vb_python.py 663-729 *)
Section Prior.
  Context (psi : R -> R).
  (** Lines 633-635 (715-717): the denominator subtracts the digamma of each entry, not of
      the sum. *)
  Definition prior_step (K D : nat) (lens : vec) (counts : mat) (prior : vec) : vec := fun k =>
    let numer := (vsum D (fun d => psi (counts d k)) - INR D * psi (prior k))%R in
    let denom := (vsum D (fun d => psi (lens d + vsum K prior)) - INR D * psi (prior k))%R in
    (prior k * (numer / denom))%R.
  (** Lines 627-639 (709-720); [cols] is the length of the arrays, [keep] what is done with
      the new prior (line 636). *)
  Fixpoint prior_loop (keep : vec -> vec) (cols K D : nat) (lens : vec) (n : nat) (counts : mat) (old prior : vec) : vec :=
    match n with
    | 0 => prior
    | S n =>
      let counts := fun d k => (counts d k + (prior k - old k))%R in
      let new := keep (prior_step K D lens counts prior) in
      if rltb (l1 cols (fun k => prior k - new k)%R) (1 / 1000 * INR K) then new
      else prior_loop keep cols K D lens n counts prior new
    end.
  (** rtm.py: the arrays have K+1 entries, of which the last is not one of a topic. *)
  Definition rtm_prior (K D : nat) (lens : vec) (means : mat) (prior : vec) : vec :=
    let counts := fun d k => (means d k * lens d + prior k)%R in
    let start := set_at prior K 1%R in
    set_at (prior_loop (fun v => set_at v K 1%R) (S K) K D lens 100 counts start start) K 0%R.
  (** lda_vb_python.py: no extra entry; lines 727-729 keep the prior positive. *)
  Definition vb_prior (K D : nat) (lens : vec) (means : mat) (prior : vec) : vec :=
    let counts := fun d k => (means d k * lens d + prior k)%R in
    fun k => Rmax (prior_loop (fun v => v) K K D lens 100 counts prior prior k) (1 / IZR (10 ^ 6)).
End Prior.

(** ** newModelAtRandom, rtm.py lines 57-104, as far as the prior is concerned *)
Inductive prior_arg := NoPrior | ScalarPrior (x : R) | VectorPrior (v : list R).
(** a[i] = x for an array. *)
Definition set_item {A} (l : list A) (i : nat) (x : A) : res (list A) :=
  if i <? length l then Ok (firstn i l ++ x :: skipn (S i) l) else Raise IndexError.
Definition rtm_new_prior (K : nat) (arg : prior_arg) : res (list R) :=
  if negb (1 <? K) then Raise AssertionError else
  if negb (K <? 255) then Raise AssertionError else
  match arg with
  | NoPrior => set_item (repeat (5 / INR K + 5 / 10)%R (K + 1)) K 0%R
  | ScalarPrior _ => Raise TypeError       (* a number does not support item assignment *)
  | VectorPrior v => set_item v K 0%R
  end.
(** numpy.random.dirichlet, which wants positive numbers: the draws, or ValueError. *)
Definition dirichlet {A} (alpha : list R) (draws : A) : res A :=
  if forallb (fun x => rltb 0 x) alpha then Ok draws else Raise ValueError.
(** newQueryState, lines 107-130: what is drawn goes into [rtm_new_topics] of RtmModel.v. *)
Definition rtm_new_state (prior : list R) (draws : mat) (rest : mat -> mat) : res mat :=
  do m <- dirichlet prior draws; Ok (rest m).

(** ** inferPolyaHyper, lda_gibbs_fast.pyx lines 52-120 *)
Section Polya.
  Context (D K : nat) (counts : nat -> nat -> Z) (sums : nat -> Z).
  Definition xcount (z : Z) : xr := Fin (IZR z).
  Definition polya_ratio (n : Z) (old : xr) : xr := xcount n ⊘ (xcount (n - 1) ⊕ old).
  (** Lines 86-120; the variable denom is not set before it is added to (line 114), so it starts
      as [junk]. *)
  Definition polya_single (junk : xr) (old : nat -> xr) : nat -> xr := fun k =>
    let new := xsum D (fun d => polya_ratio (counts d k) (old k)) in
    let denom := junk ⊕ xsum D (fun d => polya_ratio (sums d) (xsum K old)) in
    ((old k ⊗ new) ⊘ denom) ⊕ Fin (1 / IZR (10 ^ 5)).
  Definition xabs (x : xr) : xr := match x with Fin x => Fin (Rabs x) | NInf => PInf | x => x end.
  (** Lines 70-77; [junk itr] is the rubbish found in that call. *)
  Fixpoint polya_loop (junk : nat -> xr) (n itr : nat) (change : xr) (soln : nat -> xr) : nat -> xr :=
    match n with
    | 0 => soln
    | S n =>
      if xlt (Fin (1 / 100 / INR K)) change then
        let new := polya_single (junk itr) soln in
        polya_loop junk n (S itr) (xsum K (fun k => xabs (soln k ⊖ new k))) new
      else soln
    end.
  (** Lines 65-79. *)
  Definition polya_start : nat -> xr :=
    let mean := fun k => xsum D (fun d => xcount (counts d k)) ⊘ Fin (INR D) in
    fun k => mean k ⊘ xsum K mean.
  Definition infer_polya (junk : nat -> xr) : nat -> xr :=
    polya_loop junk 1000 0 (Fin (1 / 100 / INR K + 1)) polya_start.
End Polya.
