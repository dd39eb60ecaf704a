(** * Model of how latent random offsets are learned: train and query of
    model/lro_vb.py.

    Floating point numbers are real numbers, so nothing overflows or is rounded.
    The matrix inverse of scipy is an argument, and so is all of lda_vb.  Printing
    is left out.  LinkModel has the scores that come out of it. *)
From Coq Require Import List ZArith Reals Arith Bool.
From Verif Require Import Base RealModel VbModel.
Import ListNotations.
Open Scope nat_scope.

(** numpy's dot: of two vectors of [K] numbers, and of a vector and a matrix. *)
Definition vdot (K : nat) (u v : vec) : R := vsum K (fun k => (u k * v k)%R).
Definition vmat (K : nat) (v : vec) (M : mat) : vec := fun k => vsum K (fun j => (v j * M j k)%R).
Definition outer (u v : vec) : mat := fun j k => (u j * v k)%R.

Section Offsets.
  Context (inv : nat -> mat -> res mat) (K D : nat) (links : list (list nat)) (tau0 tau1 noise : R) (tops : mat).

  (** Line 196, the indices of row [p] of the transpose of the links.  Row [d] of
      [links] has the columns that the links store for document [d]; a column stored
      twice counts once. *)
  Definition cites (d p : nat) : bool := existsb (Nat.eqb p) (nth d links []).
  Definition inlinks (p : nat) : list nat := filter (fun d => cites d p) (seq 0 D).

  (** Line 193. *)
  Definition topsSum : mat := fun j k => vsum D (fun d => (tops d j * tops d k)%R).

  (** Lines 209-211: what document [p] adds to both sides of the scale. *)
  Definition scale_lhs (offs : mat) (p : nat) : R :=
    ((tau1 - tau0) * rsum (map (fun d => (vdot K (tops d) (offs p)) ^ 2) (inlinks p))
     + tau0 * (vdot K (vmat K (offs p) topsSum) (offs p)
               - vdot K (vmat K (offs p) (outer (tops p) (tops p))) (offs p)))%R.
  Definition scale_rhs (offs : mat) (p : nat) : R :=
    (tau1 * rsum (map (fun d => vdot K (tops d) (offs p)) (inlinks p)))%R.

  (** Lines 217-220; einsum "dj,k->jk" adds up over the documents. *)
  Definition offset_matrix (s : R) (p : nat) : mat :=
    fun j k =>
      (((tau1 - tau0) * (rsum (map (fun d => tops d j) (inlinks p)) * tops p k)
        + tau0 * (vsum D (fun d => tops d j) * tops p k - outer (tops p) (tops p) j k)) * (s * s)
       + (if j =? k then noise else 0))%R.
  (** Line 222. *)
  Definition offset_rhs (s : R) (p : nat) : vec :=
    fun j => (tops p j + s * tau1 * rsum (map (fun d => tops d j) (inlinks p)))%R.
  (** Line 224. *)
  Definition offset (s : R) (p : nat) : res vec :=
    do N <- inv K (offset_matrix s p);
    Ok (fun j => vdot K (N j) (offset_rhs s p)).
  (** Lines 216-224; no document reads the offset of another. *)
  Definition new_offsets (s : R) : res mat :=
    do rows <- mapM (offset s) (seq 0 D);
    Ok (fun p => nth p rows (fun _ => 0%R)).

  (** Lines 204 and 227, la.norm of the offsets over the scale.  scipy refuses
      numbers that are not finite, which a scale of zero gives. *)
  Definition norm_over (offs : mat) (s : R) : res R :=
    if Req_EM_T s 0 then Raise ValueError
    else Ok (sqrt (vsum D (fun p => vsum K (fun k => (offs p k / s) ^ 2))))%R.

  (** Lines 200-230.  Without documents both sides are the integer zero and line
      213 raises ZeroDivisionError.  Else they are numpy's numbers: over zero they give
      something that is not finite, which la.inv refuses. *)
  Fixpoint lro_loop (n : nat) (eps : R) (s : R) (offs : mat) : res (R * mat) :=
    match n with
    | O => Ok (s, offs)
    | S n =>
      if D =? 0 then Raise ZeroDivisionError else
      do before <- norm_over offs s;
      let lhs := vsum D (scale_lhs offs) in
      let rhs := vsum D (scale_rhs offs) in
      if Req_EM_T lhs 0 then Raise ValueError else
      let s' := (rhs / lhs)%R in
      do offs' <- new_offsets s';
      do after <- norm_over offs' s';
      if Rlt_dec (Rabs (before - after)) eps then Ok (s', offs')
      else lro_loop n eps s' offs'
    end.
End Offsets.

(** ModelState, lines 48-51, without dtype and name; QueryState, lines 43-46. *)
Record lro_model (LM : Type) : Type :=
  mkLM { lm_lda : LM; lm_K : nat; lm_noise : R; lm_var0 : R; lm_var1 : R; lm_scale : R }.
Record lro_query (LQ : Type) : Type := mkLQ { lq_lda : LQ; lq_offs : mat }.
Arguments mkLM {LM}. Arguments lm_lda {LM}. Arguments lm_K {LM}. Arguments lm_noise {LM}.
Arguments lm_var0 {LM}. Arguments lm_var1 {LM}. Arguments lm_scale {LM}.
Arguments mkLQ {LQ}. Arguments lq_lda {LQ}. Arguments lq_offs {LQ}.

(** newModelAtRandom, lines 81-114, with a model of the topics: the defaults of
    lines 81 and 109-112. *)
Definition lro_default {LM : Type} (lda : LM) (K : nat) : lro_model LM :=
  mkLM lda K 9%R (1 / 100)%R 1%R 1%R.

Section Train.
  Context {LM LQ : Type}.
  Context (processed : LM -> bool) (lda_K : LM -> nat) (lda_new_query : LM -> LQ)
          (lda_query : LM -> LQ -> res LQ) (lda_train : LM -> LQ -> res (LM * LQ)) (topicDists : LQ -> mat).
  Context (inv : nat -> mat -> res mat) (D : nat) (links : list (list nat)).

  (** train, lines 154-234; [eps] is absent for the default of line 180. *)
  Definition lro_train (m : lro_model LM) (q : lro_query LQ) (iterations : nat) (eps : option R) (isQuery : bool)
    : res (lro_model LM * lro_query LQ) :=
    let K := lda_K (lm_lda m) in
    let e := match eps with Some e => e | None => (1 / 100 * INR D * INR K)%R end in
    do (lm, lq) <- (if isQuery then
                      do lq <- lda_query (lm_lda m) (lda_new_query (lm_lda m)); Ok (lm_lda m, lq)
                    else if processed (lm_lda m) then Ok (lm_lda m, lq_lda q)
                    else lda_train (lm_lda m) (lq_lda q));
    let tops := topicDists lq in
    do (s, offs) <- lro_loop inv K D links (lm_var0 m) (lm_var1 m) (lm_noise m) tops iterations e (lm_scale m) tops;
    Ok (mkLM lm K (lm_noise m) (lm_var0 m) (lm_var1 m) s, mkLQ lq offs).

  (** query, lines 237-254. *)
  Definition lro_ask (m : lro_model LM) (q : lro_query LQ) (iterations : nat) (eps : option R)
    : res (lro_model LM * lro_query LQ) :=
    do (_, q') <- lro_train m q iterations eps true;
    Ok (m, q').
End Train.
