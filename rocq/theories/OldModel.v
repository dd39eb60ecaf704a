(** * Model of /repo/sidetopics/model/old/sidetopic.py: train (lines 111-270), deriveXi
    (421-426), newVbModelState (433-468).

    Numbers are reals without rounding.  The draws and scipy's inverse are arguments; an
    inverse that does not exist is None.  The bound printed after every step (lines 287-306)
    is left out: it stores nothing.  The matrices have the sizes that the model names. *)
From Coq Require Import List Reals ZArith Arith Bool.
From Verif Require Import Base RealModel VbModel LinkModel CtmModel BouchModel UyvModel.
Import ListNotations.
Open Scope nat_scope.

Section old.
  Variables K F T P D : nat.
  Variables tiny sigma tau : R.
  Variable inv : nat -> mat -> option mat.                      (* la.inv *)

  Record old := { o_A : mat; o_varA : mat; o_V : mat; o_varV : mat; o_U : mat; o_vocab : mat }.
  Record old_query := { o_lmda : mat; o_nu : mat; o_lxi : mat; o_s : vec }.

  (** Lines 455-468. *)
  Definition old_new (V U draws : mat) : old :=
    {| o_A := fun f k => vsum P (fun p => U f p * V p k)%R; o_varA := eye; o_V := V; o_varV := eye; o_U := U;
       o_vocab := norm_rows T draws |}.
  (** Lines 152-155. *)
  Definition old_start (draws : mat) : old_query :=
    {| o_lmda := draws; o_nu := fun _ _ => 1%R; o_lxi := fun _ _ => neg_jakkola 1; o_s := fun _ => 0%R |}.

  (** Lines 178-179. *)
  Definition old_varV (U : mat) : res mat := la_inv inv P (fun p q => scalar (tau * tau) p q + gram F U p q)%R.
  Definition old_V (varV U A : mat) : mat := fun p k => vsum P (fun q => varV p q * vsum F (fun f => U f q * A f k))%R.
  (** Lines 187-188. *)
  Definition old_varA (X : mat) : res mat := la_inv inv F (fun f g => tau * tau / (sigma * sigma) * gram D X f g + eye f g)%R.
  Definition old_A (varA X lmda U V : mat) : mat := fun f k =>
    vsum F (fun g => varA f g * (vsum P (fun p => U g p * V p k) + vsum D (fun d => X d g * lmda d k)))%R.
  (** Lines 194-195 and 229; safe_log is overflow_safe.py lines 184-204, and rowwise_softmax,
      sigmoid_utils.py lines 14-26, normalises over the topics (its scaling cancels). *)
  Definition old_ln (vocab : mat) : mat := fun k t => if rltb (vocab k t) tiny then ln tiny else ln (vocab k t).
  Definition old_Z (lmda lnVocab : mat) (d k t : nat) : R :=
    (exp (lmda d k + lnVocab k t) / vsum K (fun j => exp (lmda d j + lnVocab j t)))%R.
  (** Lines 196-200; line 146 gives the lengths of the documents. *)
  Definition old_lmda (W X A lnVocab : mat) (n : vec) (q : old_query) : mat := fun d k =>
    let rho := (2 * o_s q d * o_lxi q d k - 5 / 10 + vsum T (fun t => W d t * old_Z (o_lmda q) lnVocab d k t) / n d)%R in
    ((n d * rho + 1 / (sigma * sigma) * vsum F (fun f => X d f * A f k)) / (n d * 2 * o_lxi q d k + 1 / (sigma * sigma)))%R.
  (** Line 208. *)
  Definition old_nu (n : vec) (lxi : mat) : mat := fun d k => (1 / sqrt (2 * n d * lxi d k + 1 / (sigma * sigma)))%R.
  (** Lines 229-230. *)
  Definition old_vocab (W lmda lnVocab : mat) : mat := norm_rows T (fun k t => vsum D (fun d => W d t * old_Z lmda lnVocab d k t))%R.
  (** Line 235. *)
  Definition old_U (A V varV : mat) : res mat :=
    do N <- la_inv inv P (fun p q => INR K * (tau * tau) * varV p q + vsum K (fun k => V p k * V q k))%R;
    Ok (fun f p => vsum P (fun q => vsum K (fun k => A f k * V q k) * N q p))%R.

  (** One iteration, lines 166-236. *)
  Definition old_iter (W X : mat) (m : old) (q : old_query) : res (old * old_query) :=
    let n := fun d => vsum T (W d) in
    do varV <- old_varV (o_U m);
    let V := old_V varV (o_U m) (o_A m) in
    do varA <- old_varA X;
    let A := old_A varA X (o_lmda q) (o_U m) V in
    let lnVocab := old_ln (o_vocab m) in
    let lmda := old_lmda W X A lnVocab n q in
    let nu := old_nu n (o_lxi q) in
    let lxi := lxi_of lmda nu (o_s q) in
    let vocab := old_vocab W lmda lnVocab in
    do U <- old_U A V varV;
    Ok ({| o_A := A; o_varA := varA; o_V := V; o_varV := varV; o_U := U; o_vocab := vocab |},
        {| o_lmda := lmda; o_nu := nu; o_lxi := lxi; o_s := o_s q |}).
  Fixpoint old_loop (iterations : nat) (W X : mat) (m : old) (q : old_query) : res (old * old_query) :=
    match iterations with
    | 0 => Ok (m, q)
    | S i => do (m, q) <- old_iter W X m q; old_loop i W X m q
    end.

  (** The whole of train.  A positive logInterval makes np.zeros, line 142, refuse a number
      that is not an integer.  A document without words makes line 197 divide by zero: its
      means and the whole vocabulary are NaN after the first iteration, A and U are after the
      second, and la.inv refuses U at the third; None stands for arrays with NaN. *)
  Definition empty (W : mat) : bool := existsb (fun d => negb (rltb 0 (vsum T (W d)))) (seq 0 D).
  Definition old_train (logInterval iterations : nat) (W X : mat) (m : old) (draws : mat) : res (option (old * old_query)) :=
    if 0 <? logInterval then Raise TypeError
    else if empty W && (0 <? iterations) then
      do r <- old_iter W X m (old_start draws);
      if 2 <? iterations then Raise ValueError else Ok None
    else do r <- old_loop iterations W X m (old_start draws); Ok (Some r).
End old.
