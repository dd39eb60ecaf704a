(** * Specification vocabulary for the matrix and dataset splits. *)
From Coq Require Import List ZArith QArith Qabs Arith.
From Verif Require Import Base SparseModel DatasetModel.
Import ListNotations.
Open Scope nat_scope.

(** The k-th stored entry of row i. *)
Definition entry (m : smat) (i k : nat) : option (nat * Z) :=
  match nth_error (srows m) i with Some r => nth_error r k | None => None end.

(** Number, in storage order, of the k-th stored entry of row i. *)
Definition entry_number (m : smat) (i k : nat) : nat :=
  length (concat (firstn i (srows m))) + k.

(** [e] is the integer nearest to [q]; the even one if there are two. *)
Definition nearest_even (q : Q) (e : Z) : Prop :=
  (Qabs (q - inject_Z e) <= 1 # 2)%Q /\
  (Qabs (q - inject_Z e) == 1 # 2 -> Z.even e = true)%Q.

(** What DataSet.__init__ checks: at least one document, and all components
    have one row per document. *)
Definition consistent (ds : dataset) : Prop :=
  0 < nrows (words ds) /\
  (match feats ds with None => True | Some f => length (frows f) = nrows (words ds) end) /\
  (match links ds with None => True | Some m => nrows m = nrows (words ds) end) /\
  (match cats ds with NoCats => True | PyList l => length l = nrows (words ds)
                    | NpArr l => length l = nrows (words ds) end).

(** Everything but the words and the order is shared with the original. *)
Definition same_side_data (a ds : dataset) : Prop :=
  feats a = feats ds /\ links a = links ds /\ dict a = dict ds /\ cats a = cats ds.

(** Row [i] of [w] holds at least [mu] non-zero stored values. *)
Definition enough_in (w : smat) (mu : Q) (i : nat) : Prop :=
  exists r, nth_error (srows w) i = Some r /\
            (mu <= inject_Z (Z.of_nat (length (filter (fun e => negb (snd e =? 0)%Z) r))))%Q.
