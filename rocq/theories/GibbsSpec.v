(** * What the counts of the Gibbs sampler mean.

    Tokens are numbered through all documents: document [d] owns the tokens
    from [offset d] to [offset d + length of d]; [w n] is the word of token
    [n] and [z n] its topic. *)
From Coq Require Import List ZArith QArith Arith Bool.
From Verif Require Import Base EvalSpec.
Import ListNotations.
Open Scope nat_scope.

Definition count {A} (p : A -> bool) (l : list A) : Z := Z.of_nat (length (filter p l)).

Section Tallies.
  Context (w : nat -> nat) (lens : list nat).
  Definition offset (d : nat) : nat := sumN (firstn d lens).
  Definition total : nat := sumN lens.
  Definition doc_tokens (d : nat) : list nat := seq (offset d) (nth d lens 0).

  Definition doc_topic (z : nat -> nat) (d k : nat) : Z := count (fun n => z n =? k) (doc_tokens d).
  Definition topic_word (z : nat -> nat) (k v : nat) : Z :=
    count (fun n => (z n =? k) && (w n =? v)) (seq 0 total).
  Definition topic_all (z : nat -> nat) (k : nat) : Z := count (fun n => z n =? k) (seq 0 total).

  (** Every token has one of the [K] topics. *)
  Definition assigned (K : nat) (z : nat -> nat) : Prop := forall n, n < total -> z n < K.
End Tallies.

(** A distribution over [0 .. N-1]. *)
Definition distribution (N : nat) (p : nat -> Q) : Prop :=
  (forall i, i < N -> (0 <= p i)%Q) /\ (qsum p (seq 0 N) == 1)%Q.

(** Topic [k] owns the draws [x] between the cumulated weights before and
    including it. *)
Definition owns (dist : nat -> Q) (k : nat) (x : Q) : Prop :=
  (qsum dist (seq 0 k) < x)%Q /\ (x <= qsum dist (seq 0 (S k)))%Q.

(** The conditional weight of topic [j] for token [n] of document [d] given the
    topics of all other tokens; [bkv] and [bk] are counts from elsewhere. *)
Section Conditional.
  Context (T : nat) (w : nat -> nat) (lens : list nat) (bkv : nat -> nat -> Z) (bk : nat -> Z) (a b : nat -> Q).
  Definition others_doc (z : nat -> nat) (n d j : nat) : Z :=
    count (fun m => negb (m =? n) && (z m =? j)) (doc_tokens lens d).
  Definition others_word (z : nat -> nat) (n j v : nat) : Z :=
    count (fun m => negb (m =? n) && ((z m =? j) && (w m =? v))) (seq 0 (total lens)).
  Definition others_all (z : nat -> nat) (n j : nat) : Z :=
    count (fun m => negb (m =? n) && (z m =? j)) (seq 0 (total lens)).
  Definition conditional (z : nat -> nat) (d n j : nat) : Q :=
    ((inject_Z (others_doc z n d j) + a j)
     * (inject_Z (bkv j (w n) + others_word z n j (w n)) + b (w n))
     / (inject_Z (bk j + others_all z n j) + qsum b (seq 0 T)))%Q.
  (** In a query the topic-word counts stay fixed. *)
  Definition conditional_fixed (z : nat -> nat) (d n j : nat) : Q :=
    ((inject_Z (others_doc z n d j) + a j) * (inject_Z (bkv j (w n)) + b (w n))
     / (inject_Z (bk j) + qsum b (seq 0 T)))%Q.
End Conditional.
