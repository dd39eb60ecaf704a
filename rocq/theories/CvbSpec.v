(** * What the counts kept by the CVB trainers mean.

    [resp d n k] is the responsibility of topic [k] for the [n]-th token of
    document [d]; [word d n] is that token and [len d] the number of tokens. *)
From Coq Require Import List ZArith QArith Arith Bool.
From Verif Require Import Base EvalSpec.
Import ListNotations.
Open Scope nat_scope.

Section Totals.
  Context (D : nat) (word : nat -> nat -> nat) (len : nat -> nat).

  Definition doc_total (resp : nat -> nat -> nat -> Q) (d k : nat) : Q :=
    qsum (fun n => resp d n k) (seq 0 (len d)).
  Definition word_total (resp : nat -> nat -> nat -> Q) (k t : nat) : Q :=
    qsum (fun d => qsum (fun n => if word d n =? t then resp d n k else 0%Q) (seq 0 (len d))) (seq 0 D).
  Definition topic_total (resp : nat -> nat -> nat -> Q) (k : nat) : Q :=
    qsum (fun d => qsum (fun n => resp d n k) (seq 0 (len d))) (seq 0 D).

  (** The three count arrays agree with the responsibilities, given fixed
      counts [bkt], [bk] that come from an earlier corpus. *)
  Definition tallies (K : nat) (bkt : nat -> nat -> Q) (bk : nat -> Q)
      (dk kt : nat -> nat -> Q) (k_ : nat -> Q) (resp : nat -> nat -> nat -> Q) : Prop :=
    forall k, k < K ->
      (forall d, d < D -> (dk d k == doc_total resp d k)%Q) /\
      (forall t, (kt k t == bkt k t + word_total resp k t)%Q) /\
      (k_ k == bk k + topic_total resp k)%Q.

  (** Every token's responsibilities form a distribution over the [K] topics. *)
  Definition distributions (K : nat) (resp : nat -> nat -> nat -> Q) : Prop :=
    forall d n, d < D -> n < len d ->
      (forall k, k < K -> (0 <= resp d n k)%Q) /\
      (qsum (fun k => resp d n k) (seq 0 K) == 1)%Q.

  Definition nonneg_resp (K : nat) (resp : nat -> nat -> nat -> Q) : Prop :=
    forall d n k, d < D -> n < len d -> k < K -> (0 <= resp d n k)%Q.
End Totals.

(** How often [t] occurs in a row of stored (column, count) pairs. *)
Definition row_count (row : list (nat * Z)) (t : nat) : Z :=
  sumZ (map snd (filter (fun e => fst e =? t) row)).
