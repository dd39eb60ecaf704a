(** * The evidence of the mixture of multinomials and its variational bound.

    Independent of the models.  A corpus is the list of the word counts of its
    documents; each document has one topic.  [g] stands for the logarithm of the gamma
    function, [psi] for its derivative. *)
From Coq Require Import List Reals Arith Bool.
From Verif Require Import Base RealModel VbModel VbProofs BoundSpec.
Import ListNotations.
Open Scope nat_scope.

(** The sum of those [xs] whose topic, in [z], is [k]. *)
Definition of_topic (xs : list R) (z : list nat) (k : nat) : R :=
  rsum (map (fun '(x, k') => if k' =? k then x else 0%R) (combine xs z)).

(** The log probability of the words and of the topics [z] of the documents, the
    distributions over topics and words integrated out: Dirichlet priors [alpha] and
    [eta]. *)
Definition mix_joint (g : R -> R) (K T : nat) (alpha eta : vec) (W : list vec) (z : list nat) : R :=
  ((lnB g K (fun k => alpha k + of_topic (map (fun _ => 1) W) z k) - lnB g K alpha) +
   vsum K (fun k => lnB g T (fun t => eta t + of_topic (map (fun doc : vec => doc t) W) z k) - lnB g T eta))%R.
(** The probability of the words. *)
Definition mix_evidence (g : R -> R) (K T : nat) (alpha eta : vec) (W : list vec) : R :=
  rsum (map (fun z => exp (mix_joint g K T alpha eta W z)) (assignments K (length W))).

(** The expected logarithm of a component under a Dirichlet distribution. *)
Definition e_ln (psi : R -> R) (n : nat) (par : vec) (i : nat) : R := (psi (par i) - psi (vsum n par))%R.
(** Minus the divergence of the Dirichlet distribution with parameters [par] from the
    one with parameters [prior]. *)
Definition dir_gap (g psi : R -> R) (n : nat) (prior par : vec) : R :=
  (vsum n (fun i => (prior i - par i) * e_ln psi n par i) - lnB g n prior + lnB g n par)%R.
(** The variational bound: the topics of the documents are distributed as [qs],
    the distribution over topics as a Dirichlet distribution with parameters [cp], that
    over the words of topic [k] as one with [wp k]. *)
Definition mix_bound (g psi : R -> R) (K T : nat) (alpha eta : vec) (W qs : list vec) (cp : vec) (wp : nat -> vec) : R :=
  (rsum (map (fun '((doc, q) : vec * vec) => vsum K (fun k => q k * (e_ln psi K cp k + vsum T (fun t => doc t * e_ln psi T (wp k) t)))) (combine W qs)) +
   ents K qs + dir_gap g psi K alpha cp + vsum K (fun k => dir_gap g psi T eta (wp k)))%R.
