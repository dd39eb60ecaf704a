(** * What a Dirichlet-multinomial regression samples from.

    Independent of the models: latent Dirichlet allocation in which every document has a
    prior over topics of its own, [alpha d] for document [d]. *)
From Coq Require Import List Reals Arith.
From Verif Require Import Base RealModel VbModel BoundSpec.
Import ListNotations.
Open Scope nat_scope.

(** The log probability of topics and words. *)
Definition rjoint (g : R -> R) (D K T : nat) (alpha : nat -> vec) (eta : vec) (tk : list token) (a : list nat) : R :=
  (vsum D (fun d => lnB g K (fun k => alpha d k + n_doc tk a d k) - lnB g K (alpha d)) +
   vsum K (fun k => lnB g T (fun t => eta t + n_word tk a k t) - lnB g T eta))%R.
(** The law of the topics given the words. *)
Definition rposterior (g : R -> R) (D K T : nat) (alpha : nat -> vec) (eta : vec) (tk : list token) (a : list nat) : R :=
  (exp (rjoint g D K T alpha eta tk a) /
   rsum (map (fun a => exp (rjoint g D K T alpha eta tk a)) (assignments K (length tk))))%R.

(** The law of the topics given the words, when the distributions [phi] of the topics
    over words are known. *)
Definition rgiven (g : R -> R) (D K : nat) (alpha : nat -> vec) (phi : nat -> nat -> R) (tk : list token) (a : list nat) : R :=
  (exp (vsum D (fun d => lnB g K (fun k => alpha d k + n_doc tk a d k) - lnB g K (alpha d))) *
   fold_right Rmult 1 (map (fun '((_, t), k) => phi k t) (combine tk a)))%R.
Definition rposterior_given (g : R -> R) (D K : nat) (alpha : nat -> vec) (phi : nat -> nat -> R) (tk : list token) (a : list nat) : R :=
  (rgiven g D K alpha phi tk a / rsum (map (rgiven g D K alpha phi tk) (assignments K (length tk))))%R.

(** The prior that the features [X] of a document and the weights [W] of the topics give
    it in a Dirichlet-multinomial regression: the logarithms are linear. *)
Definition log_linear (F : nat) (X W : nat -> nat -> R) (d k : nat) : R := exp (vsum F (fun f => X d f * W k f))%R.
