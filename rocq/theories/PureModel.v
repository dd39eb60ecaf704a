(** * Model of iterate of /repo/sidetopics/model/lda_vb.py, lines 248-300: training in pure Python.
    It takes the arguments of the compiled function that train uses instead (line 204).

    Numbers are reals without rounding.  [doc d] are the words W_list[d, 0:docLens[d]]; the rows
    of z_dnk past them are not read again.  [dig] is digamma, [a] the almostZero of safe_log. *)
From Coq Require Import List Reals ZArith Arith Bool.
From Verif Require Import Base RealModel VbModel LinkModel MomModel.
Import ListNotations.
Open Scope nat_scope.

Section pure.
  Variables K T D : nat.
  Variable prior : vec.
  Variables beta a : R.
  Variable dig : R -> R.
  Variable doc : nat -> list nat.
  (** Line 248. *)
  Definition max_inner : nat := 20.
  (** Lines 275-286: a token's row depends on its word. *)
  Definition token (lnw : mat) (th : vec) (t : nat) : vec := vsoftmax K (fun k => lnw k t + dig (th k))%R.
  (** Lines 289-290. *)
  Definition topics_of (lnw : mat) (toks : list nat) (th : vec) : vec :=
    let u := fun k => (prior k + rsum (map (fun t => token lnw th t k) toks))%R in
    fun k => (u k / vsum K u)%R.
  (** Lines 272-292: the number of iterations, the topics that the tokens' rows are of, and the
      topics. *)
  Fixpoint inner (fuel i : nat) (lnw : mat) (toks : list nat) (old prev th : vec) : nat * vec * vec :=
    match fuel with
    | 0 => (i, prev, th)
    | S fuel =>
      if ((i <? max_inner) || rltb (1 / 100 / INR K) (vsum K (fun k => Rabs (old k - th k)))) && (i <? max_inner)
      then inner fuel (S i) lnw toks old th (topics_of lnw toks th)
      else (i, prev, th)
    end.
  (** Lines 295-297. *)
  Definition add_tokens (z : nat -> vec) (toks : list nat) (words : mat) : mat :=
    fun k t => (words k t + rsum (map (fun t' => if t' =? t then z t' k else 0) toks))%R.
  (** Line 298. *)
  Definition rows_over_sums (words : mat) : mat := fun k t => (words k t / vsum T (words k))%R.
  (** Lines 268-298, for a document: the new words' weights, the topics, the iterations so far. *)
  Definition pure_doc (lnw : mat) (d : nat) (s : mat * mat * nat) : mat * mat * nat :=
    let '(words, tops, total) := s in
    let uniform := fun _ => (1 / INR K)%R in
    let '(i, prev, th) := inner (S max_inner) 0 lnw (doc d) (tops d) uniform uniform in
    (rows_over_sums (add_tokens (token lnw prev) (doc d) words), set_row tops d th, total + i).
  Definition pure_docs (lnw : mat) (ds : list nat) (s : mat * mat * nat) : mat * mat * nat :=
    fold_left (fun s d => pure_doc lnw d s) ds s.
  (** Lines 262-298: oldWordDists, newWordDists, the topics and the iterations.  The two arrays
      are swapped before they are written. *)
  Definition pure_step (s : mat * mat * mat * nat) : mat * mat * mat * nat :=
    let '(old, new, tops, total) := s in
    let lnw : mat := fun k t => safe_ln a (new k t) in
    let filled : mat := fun _ _ => beta in
    let '(words, tops, total) := pure_docs lnw (seq 0 D) (filled, tops, total) in
    (lnw, words, tops, total).
  Fixpoint pure_loop (n : nat) (s : mat * mat * mat * nat) : mat * mat * mat * nat :=
    match n with 0 => s | S n => pure_loop n (pure_step s) end.
  (** Lines 251-300: the caller's array of words, the topics, and the number returned.
      newWordDists is the caller's array at first (line 259), and every other time. *)
  Definition pure_iterate (n : nat) (fresh words tops : mat) : mat * mat * nat :=
    let '(old, new, tops, total) := pure_loop n (fresh, words, tops, 0) in
    ((if Nat.even n then new else old), tops, total).
End pure.
