(** * What latent random offsets are to minimise, said without the model of the code. *)
From Coq Require Import List Reals Arith Bool.
From Verif Require Import Base RealModel VbModel.
Import ListNotations.
Open Scope nat_scope.

(** The product of the topics of document [d] and the offset of document [p]. *)
Definition meet (K : nat) (tops offs : mat) (d p : nat) : R := vsum K (fun k => (tops d k * offs p k)%R).

(** How much the pair of documents counts: [w1] if there is a link from one to the
    other, [w0] if not, and nothing for a document and itself. *)
Definition pair_weight (w0 w1 : R) (linked : nat -> nat -> bool) (d p : nat) : R :=
  if linked d p then w1 else if d =? p then 0%R else w0.

(** The weighted squares of how far the links, one for a link and zero for none, are
    from scale times product. *)
Definition misfit (w0 w1 : R) (K D : nat) (linked : nat -> nat -> bool) (tops : mat) (s : R) (offs : mat) : R :=
  vsum D (fun p => vsum D (fun d =>
    (pair_weight w0 w1 linked d p * ((if linked d p then 1 else 0) - s * meet K tops offs d p) ^ 2)%R)).

(** How far the offsets are from the topics. *)
Definition astray (K D : nat) (tops offs : mat) : R :=
  vsum D (fun p => vsum K (fun k => ((offs p k - tops p k) ^ 2)%R)).

(** The objective: links and offsets with precisions [w0], [w1] and [lam]. *)
Definition loss (w0 w1 lam : R) (K D : nat) (linked : nat -> nat -> bool) (tops : mat) (s : R) (offs : mat) : R :=
  (misfit w0 w1 K D linked tops s offs + lam * astray K D tops offs)%R.

(** A function that inverts matrices, and raises LinAlgError for the others. *)
Definition is_inverse (K : nat) (M N : mat) : Prop :=
  forall i j, i < K -> j < K -> vsum K (fun k => (M i k * N k j)%R) = (if i =? j then 1 else 0)%R.
Definition inverts (inv : nat -> mat -> res mat) (K : nat) : Prop :=
  forall M, match inv K M with
            | Ok N => is_inverse K M N
            | Raise e => e = LinAlgError /\ forall N, ~ is_inverse K M N
            end.

(** Whether the list of rows has a link from [d] to [p]. *)
Definition has_link (links : list (list nat)) (d p : nat) : bool :=
  if in_dec Nat.eq_dec p (nth d links []) then true else false.
Definition no_self_links (D : nat) (links : list (list nat)) : Prop :=
  forall p, p < D -> ~ In p (nth p links []).

(** The sum of the topics of the others by the weights of the pairs. *)
Definition pull (w0 w1 : R) (D : nat) (linked : nat -> nat -> bool) (tops : mat) (p : nat) : vec :=
  fun j => vsum D (fun d => (pair_weight w0 w1 linked d p * tops d j)%R).
(** The sum of the topics of the documents that link to [p]. *)
Definition fans (D : nat) (linked : nat -> nat -> bool) (tops : mat) (p : nat) : vec :=
  fun j => vsum D (fun d => if linked d p then tops d j else 0%R).

(** The offset of a document, in closed form. *)
Definition offset_is (w0 w1 lam : R) (K D : nat) (linked : nat -> nat -> bool) (tops : mat) (s : R) (p : nat) : vec :=
  let u := fun j => (s * s * pull w0 w1 D linked tops p j)%R in
  let r := fun j => (tops p j + s * w1 * fans D linked tops p j)%R in
  fun j => ((r j - u j * vsum K (fun k => tops p k * r k) / (lam + vsum K (fun k => tops p k * u k))) / lam)%R.

(** A model of the topics: no number is negative and the rows add up to one. *)
Definition topics_ok (K D : nat) (tops : mat) : Prop :=
  forall d, d < D -> (forall k, k < K -> (0 <= tops d k)%R) /\ vsum K (tops d) = 1%R.

(** The scale that fits the links best for the offsets, and it alone. *)
Definition best_scale (w0 w1 : R) (K D : nat) (linked : nat -> nat -> bool) (tops offs : mat) (s : R) : Prop :=
  forall s', s' <> s -> (misfit w0 w1 K D linked tops s offs < misfit w0 w1 K D linked tops s' offs)%R.
