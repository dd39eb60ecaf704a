(** * The law of a sampler that moves one token at a time.

    Independent of the models.  An assignment is the list of the topics of [N] tokens.
    A sampler is given by [moves v a r a']: visit [v] takes the assignment [a] to [a']
    when the random number is [r]. *)
From Coq Require Import List ZArith QArith Qreals Reals Arith Bool.
From Verif Require Import Base RealModel VbModel BoundSpec GibbsSpec.
Import ListNotations.
Open Scope nat_scope.

(** A number drawn uniformly from (0,1] meets [P] with probability [m]: the numbers
    that meet it are those of an interval of length [m]. *)
Definition share (P : Q -> Prop) (m : R) : Prop :=
  exists lo hi, (0 <= lo)%R /\ (lo <= hi)%R /\ (hi <= 1)%R /\ m = (hi - lo)%R /\
    forall r, (0 < r)%Q -> (r <= 1)%Q -> (P r <-> (lo < Q2R r)%R /\ (Q2R r <= hi)%R).

(** One assignment, for certain. *)
Definition certainly (a0 : list nat) : list nat -> R := fun a => if list_eq_dec Nat.eq_dec a a0 then 1%R else 0%R.

Section Chain.
  Context {V : Type} (K N : nat) (moves : V -> list nat -> Q -> list nat -> Prop).
  (** [after vs mu mu']: a sampler whose assignment is distributed as [mu] and that makes
      the visits [vs], with a fresh random number for each, has an assignment that is
      distributed as [mu']. *)
  Inductive after : list V -> (list nat -> R) -> (list nat -> R) -> Prop :=
  | after_none mu : after [] mu mu
  | after_visit v vs mu p mu1 mu2 :
      (forall a a', In a (assignments K N) -> In a' (assignments K N) -> share (fun r => moves v a r a') (p a a')) ->
      (forall a', In a' (assignments K N) -> mu1 a' = rsum (map (fun a => mu a * p a a')%R (assignments K N))) ->
      after vs mu1 mu2 -> after (v :: vs) mu mu2.

  (** [expects rounds a F x]: a sampler at [a] makes some rounds of visits; [x] is the
      expected value of [F] of the assignments at the ends of the rounds. *)
  Inductive expects : list (list V) -> list nat -> (list (list nat) -> R) -> R -> Prop :=
  | expects_none a F : expects [] a F (F [])
  | expects_round vs rounds a F mu e :
      after vs (certainly a) mu ->
      (forall a', In a' (assignments K N) -> expects rounds a' (fun path => F (a' :: path)) (e a')) ->
      expects (vs :: rounds) a F (rsum (map (fun a' => mu a' * e a')%R (assignments K N))).
End Chain.

(** How far apart two laws are. *)
Definition apart (K N : nat) (mu nu : list nat -> R) : R :=
  rsum (map (fun a => Rabs (mu a - nu a)) (assignments K N)).

(** The mean of [f] along a path, and under a law. *)
Definition average (f : list nat -> R) (path : list (list nat)) : R := (rsum (map f path) / INR (length path))%R.
Definition mean (K N : nat) (mu : list nat -> R) (f : list nat -> R) : R := rsum (map (fun a => mu a * f a)%R (assignments K N)).

(** The tokens of a corpus: documents of the lengths [lens], the words [w] of all
    documents in one list. *)
Definition corpus_tokens (w : nat -> nat) (lens : list nat) : list token :=
  flat_map (fun d => map (fun n => (d, w n)) (doc_tokens lens d)) (seq 0 (length lens)).

(** The law of the assignments given the words, under latent Dirichlet allocation. *)
Definition posterior (g : R -> R) (D K T : nat) (alpha eta : vec) (tk : list token) (a : list nat) : R :=
  (exp (joint g D K T alpha eta tk a) / evidence g D K T alpha eta tk)%R.

(** The law of the assignments given the words, when the distributions [phi] of the
    topics over words are known: proportional to the following. *)
Definition given_words (g : R -> R) (D K : nat) (alpha : vec) (phi : nat -> nat -> R) (tk : list token) (a : list nat) : R :=
  (exp (vsum D (fun d => lnB g K (fun k => alpha k + n_doc tk a d k) - lnB g K alpha)) *
   fold_right Rmult 1 (map (fun '((_, t), k) => phi k t) (combine tk a)))%R.
Definition posterior_given (g : R -> R) (D K : nat) (alpha : vec) (phi : nat -> nat -> R) (tk : list token) (a : list nat) : R :=
  (given_words g D K alpha phi tk a / rsum (map (given_words g D K alpha phi tk) (assignments K (length tk))))%R.

(** The parts of the topics in a document and of the words in a topic, given the
    assignments: the means of their Dirichlet posteriors. *)
Definition topic_part (K : nat) (alpha : vec) (tk : list token) (d k : nat) (a : list nat) : R :=
  ((alpha k + n_doc tk a d k) / vsum K (fun j => alpha j + n_doc tk a d j))%R.
Definition word_part (T : nat) (eta : vec) (tk : list token) (k t : nat) (a : list nat) : R :=
  ((eta t + n_word tk a k t) / vsum T (fun u => eta u + n_word tk a k u))%R.

(** The probability, given the words, that one more token of document [d] has topic
    [k], and that it has topic [k] and is the word [t]. *)
Definition next_token (g : R -> R) (D K T : nat) (alpha eta : vec) (tk : list token) (d k t : nat) : R :=
  (rsum (map (fun a => exp (joint g D K T alpha eta ((d, t) :: tk) (k :: a))) (assignments K (length tk))) /
   evidence g D K T alpha eta tk)%R.
Definition next_topic (g : R -> R) (D K T : nat) (alpha eta : vec) (tk : list token) (d k : nat) : R :=
  vsum T (fun t => next_token g D K T alpha eta tk d k t).
