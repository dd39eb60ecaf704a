(** * What a variational bound bounds: the evidence of latent Dirichlet allocation.

    Independent of the models.  A corpus is the list of its tokens, each a document
    and a word.  [g] stands for the logarithm of the gamma function, [psi] for its
    derivative. *)
From Coq Require Import List Reals Arith Bool.
From Verif Require Import Base RealModel VbModel VbProofs.
Import ListNotations.
Open Scope nat_scope.

Definition token : Type := nat * nat.

(** The logarithm of the normaliser of a Dirichlet distribution. *)
Definition lnB (g : R -> R) (n : nat) (v : vec) : R := (vsum n (fun i => g (v i)) - g (vsum n v))%R.

(** All ways of giving each of [n] tokens one of [K] topics. *)
Fixpoint assignments (K n : nat) : list (list nat) :=
  match n with
  | O => [[]]
  | S n => flat_map (fun k => map (cons k) (assignments K n)) (seq 0 K)
  end.

(** How many tokens of document [d] have topic [k], and how many tokens of word [t]. *)
Definition n_doc (tk : list token) (a : list nat) (d k : nat) : R :=
  rsum (map (fun '((d', _), k') => if (d' =? d) && (k' =? k) then 1%R else 0%R) (combine tk a)).
Definition n_word (tk : list token) (a : list nat) (k t : nat) : R :=
  rsum (map (fun '((_, t'), k') => if (t' =? t) && (k' =? k) then 1%R else 0%R) (combine tk a)).

(** The log probability of the words and of an assignment, the distributions over
    topics and words integrated out: Dirichlet priors [alpha] and [eta]. *)
Definition joint (g : R -> R) (D K T : nat) (alpha eta : vec) (tk : list token) (a : list nat) : R :=
  (vsum D (fun d => lnB g K (fun k => alpha k + n_doc tk a d k) - lnB g K alpha) +
   vsum K (fun k => lnB g T (fun t => eta t + n_word tk a k t) - lnB g T eta))%R.
(** The probability of the words. *)
Definition evidence (g : R -> R) (D K T : nat) (alpha eta : vec) (tk : list token) : R :=
  rsum (map (fun a => exp (joint g D K T alpha eta tk a)) (assignments K (length tk))).

(** The functions [g], the logarithm of the gamma function (up to a constant), and
    [psi], its derivative, the digamma function: by the theorem of Bohr and Mollerup
    these conditions have no other solution. *)
Definition gamma_like (g : R -> R) : Prop := forall x, (0 < x)%R -> g (x + 1)%R = (g x + ln x)%R.
Definition convex (g : R -> R) : Prop :=
  forall x y s, (0 < x)%R -> (0 < y)%R -> (0 <= s <= 1)%R -> (g ((1 - s) * x + s * y) <= (1 - s) * g x + s * g y)%R.
Definition log_gamma (g psi : R -> R) : Prop :=
  gamma_like g /\ convex g /\ forall x, (0 < x)%R -> derivable_pt_lim g x (psi x).

(** The entropy of a distribution over [K] topics. *)
Definition entropy (K : nat) (q : vec) : R := (- vsum K (fun k => q k * ln (q k)))%R.

(** The expected value of [f] when the topic of each token is drawn from its own
    distribution, the entropies of the distributions, and the lower bound of the log
    evidence that they make: Jensen's inequality and nothing else. *)
Fixpoint Ex (K : nat) (qs : list vec) (f : list nat -> R) : R :=
  match qs with
  | [] => f []
  | q :: qs => vsum K (fun k => q k * Ex K qs (fun a => f (k :: a)))%R
  end.
Definition ents (K : nat) (qs : list vec) : R := rsum (map (entropy K) qs).
Definition lower_bound (g : R -> R) (D K T : nat) (alpha eta : vec) (tk : list token) (qs : list vec) : R :=
  (Ex K qs (joint g D K T alpha eta tk) + ents K qs)%R.

(** A corpus of whole counts, the same with real numbers, and its tokens. *)
Definition real_corpus (docs : list (list (nat * nat))) : list words := map (map (fun e => (fst e, INR (snd e)))) docs.
Definition tokens_of (docs : list (list (nat * nat))) : list token :=
  flat_map (fun d => flat_map (fun e => repeat (d, fst e) (snd e)) (nth d docs [])) (seq 0 (length docs)).

(** A corpus given by the words at the positions of its documents. *)
Definition positions (D : nat) (W : nat -> nat -> nat) (lens : nat -> nat) : list token :=
  flat_map (fun d => map (fun n => (d, W d n)) (seq 0 (lens d))) (seq 0 D).
(** The distributions of its tokens, in the same order. *)
Definition at_positions (D : nat) (q : nat -> nat -> vec) (lens : nat -> nat) : list vec :=
  flat_map (fun d => map (q d) (seq 0 (lens d))) (seq 0 D).
