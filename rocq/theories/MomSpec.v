(** * The law of the memberships of a mixture of multinomials, given the word
    distributions.  Independent of the models. *)
From Coq Require Import List Reals Arith Bool.
From Verif Require Import Base RealModel VbModel BoundSpec MixBoundSpec.
Import ListNotations.
Open Scope nat_scope.

(** The probability of the words of a document (up to their order) from the word
    probabilities [p]. *)
Definition doc_prob (T : nat) (p doc : vec) : R := fold_right Rmult 1%R (map (fun t => Rpower (p t) (doc t)) (seq 0 T)).
(** The probability of the memberships [z] and of the words, the distribution over
    components integrated out: it has a Dirichlet prior [alpha]. *)
Definition mix_given (g : R -> R) (K T : nat) (alpha : vec) (phi : nat -> vec) (W : list vec) (z : list nat) : R :=
  (exp (lnB g K (fun k => alpha k + of_topic (map (fun _ => 1) W) z k) - lnB g K alpha) *
   fold_right Rmult 1 (map (fun '((doc, k) : vec * nat) => doc_prob T (phi k) doc) (combine W z)))%R.
(** The law of the memberships given the words. *)
Definition mix_posterior (g : R -> R) (K T : nat) (alpha : vec) (phi : nat -> vec) (W : list vec) (z : list nat) : R :=
  (mix_given g K T alpha phi W z / rsum (map (mix_given g K T alpha phi W) (assignments K (length W))))%R.
(** Document [d] is in component [k]. *)
Definition is_in (d k : nat) (z : list nat) : R := if nth d z 0 =? k then 1%R else 0%R.
