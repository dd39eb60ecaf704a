(** * Specification vocabulary for the ranking metrics. *)
From Coq Require Import List ZArith QArith Arith Bool Permutation.
From Verif Require Import Base EvalModel.
Import ListNotations.
Open Scope nat_scope.

(** What numpy's argsort promises: the positions, by non-decreasing value. *)
Definition sorts (argsort : list Q -> list nat) : Prop := forall l,
  Permutation (argsort l) (seq 0 (length l)) /\
  forall i j a b, i < j -> nth_error (argsort l) i = Some a -> nth_error (argsort l) j = Some b ->
    (nth a l 0 <= nth b l 0)%Q.

(** All expected links are in the ranking, ahead of all others. *)
Definition perfect (expt recv : list nat) : Prop :=
  (forall e, In e expt -> In e recv) /\
  forall i j x y, i < j -> nth_error recv i = Some x -> nth_error recv j = Some y ->
    In y expt -> In x expt.

(** The same in terms of scores: every expected link has a score above every
    unexpected one. *)
Definition scores_favour (expt : list nat) (row : list (nat * Q)) : Prop :=
  (forall e, In e expt -> In e (map fst row)) /\
  forall x p y q, In (x, p) row -> In (y, q) row -> In x expt -> ~ In y expt -> (q < p)%Q.

Definition qnat (n : nat) : Q := inject_Z (Z.of_nat n).
Definition qsum {A} (f : A -> Q) (l : list A) : Q := fold_right Qplus 0%Q (map f l).

(** Number of distinct expected links among the first [k] of the ranking. *)
Definition hits (k : nat) (recv expt : list nat) : nat :=
  length (filter (fun x => if in_dec Nat.eq_dec x (firstn k recv) then true else false)
                 (nodup Nat.eq_dec expt)).

(** Rank (from one) of a link in a ranking. *)
Definition has_rank (recv : list nat) (e r : nat) : Prop :=
  0 < r /\ nth_error recv (r - 1) = Some e /\ forall i, i < r - 1 -> nth_error recv i <> Some e.

(** [n] out-links put a document into group [g]: the first one whose range
    contains [n]; ranges starting at minus one are passed over. *)
Definition in_group (gs : list group) (n : nat) (g : group) : Prop :=
  exists before after, gs = before ++ g :: after /\
    fst g <> (-1)%Z /\ (fst g <= Z.of_nat n <= snd g)%Z /\
    forall h, In h before -> fst h = (-1)%Z \/ ~ (fst h <= Z.of_nat n <= snd h)%Z.

Definition with_links (docs : list doc) : list doc :=
  filter (fun d => match fst d with [] => false | _ => true end) docs.
