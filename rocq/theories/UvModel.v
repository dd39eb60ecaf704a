(** * Model of /repo/sidetopics/model/stm_uv_vec_y_bohning.py (the model named stm_uyv_bohning by
    run/__main__.py): lines 60-96, 164-185, 196-383 and 430-487, as far as they decide which
    exceptions are raised.

    The numbers are left out: linear algebra either succeeds or raises what the arguments
    [setup] and [solve] say.  Shapes of matrices, kinds of numbers, the fields of the
    named tuples and the names of local variables are kept. *)
From Coq Require Import List String Arith Bool ZArith.
From Verif Require Import Base.
Import ListNotations.
Open Scope nat_scope.

(** ** Named tuples *)
(** An object is the names of its fields with values. *)
Definition tuple (A : Type) : Type := list (string * A).
(** A call of the constructor, with positional arguments. *)
Definition construct {A} (fields : list string) (args : list A) : res (tuple A) :=
  if List.length fields =? List.length args then Ok (combine fields args) else Raise TypeError.
Fixpoint getattr {A} (t : tuple A) (name : string) : res A :=
  match t with
  | [] => Raise AttributeError
  | (f, v) :: t => if String.eqb f name then Ok v else getattr t name
  end.
(** Lines 68-71. *)
Definition query_fields : list string := ["means"; "docLens"]%string.

(** ** Numbers: the operator / makes a float, whatever its operands. *)
Inductive pynum := PInt (n : nat) | PFloat.
Definition true_div (a b : nat) : res pynum := if b =? 0 then Raise ZeroDivisionError else Ok PFloat.
(** ndarray.reshape takes whole numbers. *)
Definition reshape {A} (x : list A) (rows cols : pynum) : res (nat * nat) :=
  match rows, cols with
  | PInt r, PInt c => if r * c =? List.length x then Ok (r, c) else Raise ValueError
  | _, _ => Raise TypeError
  end.

(** vec, lines 82-83: the columns of a matrix one after the other. *)
Definition vec {A} (rows cols : nat) (m : nat -> nat -> A) : list A :=
  flat_map (fun j => map (fun i => m i j) (seq 0 rows)) (seq 0 cols).
(** unvec, lines 85-88. *)
Definition unvec {A} (x : list A) (row_count : nat) : res (nat * nat) :=
  do col_count <- true_div (List.length x) row_count;
  reshape x (PInt row_count) col_count.

(** ** train, lines 196-383 *)
Section train.
  Context {A : Type}.
  Variables P Q : nat.                   (* the sizes of Y *)
  Variable setup : res unit.             (* the inverse of line 266, and lines 267-279 *)
  Variable solve : nat -> res (list A).  (* lines 285-297 of each iteration: s, of Q * P numbers *)
  Variable rest : nat -> res unit.       (* lines 302-378 *)

  Fixpoint uv_loop (itr todo : nat) : res unit :=
    match todo with
    | 0 => Ok tt
    | S todo =>
      do s <- solve itr;
      do shape <- unvec s P;
      if (fst shape =? P) && (snd shape =? Q) then
        do _ <- rest itr;
        uv_loop (S itr) todo
      else Raise ValueError
    end.
  (** [features] is the number of columns of X, [covA] tells whether the model already has
      that matrix, [means] and [docLens] are what the query state holds, and expMeans is
      made of the means.  Line 265 adds a sparse matrix of 363 columns and one with as many
      columns as the truncated X. *)
  Definition uv_train {V} (features : nat) (covA : bool) (iterations : nat) (expMeans : V -> V) (queryState : tuple V) : res (tuple V) :=
    do means <- getattr queryState "means"%string;
    do docLens <- getattr queryState "docLens"%string;
    let F := 363 in
    if negb covA && negb (Nat.min features F =? F) then Raise ValueError else
    do _ <- setup;
    do _ <- uv_loop 0 iterations;
    construct query_fields [means; expMeans means; docLens].
End train.

(** ** query, lines 430-487: the rest of the function is [run]. *)
Definition uv_query {V} (queryState : tuple V) (run : V -> V -> V -> res (tuple V)) : res (tuple V) :=
  do means <- getattr queryState "means"%string;
  do expMeans <- getattr queryState "expMeans"%string;
  do docLens <- getattr queryState "docLens"%string;
  run means expMeans docLens.

(** ** topicDists, lines 93-96. *)
Definition uv_topic_dists {V} (query : tuple V) (soft : V -> V -> V) : res V :=
  do a <- getattr query "topicMean"%string;
  do b <- getattr query "topicMean"%string;
  Ok (soft a b).

(** ** newQueryState, lines 164-185, once the checks are passed. *)
Definition uv_new_query {V} (means docLens : V) : res (tuple V) := construct query_fields [means; docLens].
