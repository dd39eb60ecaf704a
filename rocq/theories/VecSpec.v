(** * Specification vocabulary for CSR matrices given by three arrays. *)
From Coq Require Import List ZArith Arith.
From Verif Require Import Base VecModel.
Import ListNotations.
Open Scope nat_scope.

Section Spec.
Context {V : Type}.

(** A well-formed CSR matrix; rows may be empty, unsorted, and may repeat columns. *)
Definition vwf (A : vcsr V) : Prop :=
  vptr A <> [] /\ nth 0 (vptr A) 0 = 0 /\
  (forall i, i < vrows A -> nth i (vptr A) 0 <= nth (i + 1) (vptr A) 0) /\
  nth (vrows A) (vptr A) 0 = length (vind A) /\ length (vdat A) = length (vind A) /\
  Forall (fun c => c < vcols A) (vind A).

(** Its stored elements as (row, column, value), in storage order. *)
Definition first_entries (A : vcsr V) (n : nat) : coo V :=
  concat (map (fun i => map (fun '(c, v) => (i, c, v))
                            (slice_ (combine (vind A) (vdat A)) (nth i (vptr A) 0) (nth (i + 1) (vptr A) 0)))
              (seq 0 n)).
Definition entries (A : vcsr V) : coo V := first_entries A (vrows A).
End Spec.

(** The number at a place: the sum of what is stored there. *)
Definition place (l : coo Z) (i j : nat) : Z :=
  sumZ (map (fun '(_, _, v) => v) (filter (fun '(a, b, _) => (a =? i) && (b =? j))%bool l)).
