(** * Model of /repo/sidetopics/model/old/sidetopic_uy.py: train (lines 63-251) and
    newVbModelState (lines 490-530).

    Numbers are reals without rounding.  The draws, scipy's inverse and the bound that is
    logged are arguments; an inverse that does not exist is None.  la.solve is a product with
    an inverse.  verify_and_log (lines 254-353) prints the bound and puts the array of topics
    back as it was, so it is left out; so is an exception of the bound inside it.  The matrices
    have the sizes that the model names.  The first import of the file (line 22)
    names a module that is not there, sidetopics.model.sidetopic_uyv; this is a model of the
    code as it would run with the module of the same name in model/old. *)
From Coq Require Import List Reals ZArith Arith Bool.
From Verif Require Import Base RealModel VbModel LinkModel CtmModel BouchModel UyvModel.
Import ListNotations.
Open Scope nat_scope.

(** The parts of VbSideTopicModelState, sidetopic_uyv.py lines 74-77, that are not numbers of
    topics, features and words; omY and V are None. *)
Record uy := { y_A : mat; y_varA : mat; y_Y : mat; y_sigY : mat; y_sigT : mat; y_U : mat; y_vocab : mat;
  y_topicVar : R; y_featVar : R; y_lowTopicVar : R; y_lowFeatVar : R }.
(** VbSideTopicQueryState, sidetopic_uyv.py lines 68-71. *)
Record uy_query := { y_expLmda : mat; y_nu : mat; y_lxi : mat; y_s : vec; y_docLen : vec }.

Section uy.
  Variables K F T P D : nat.
  Variable inv : nat -> mat -> option mat.                      (* la.inv *)

  (** Lines 523-530, with newVbModelState of sidetopic_uyv.py, lines 868-887, at its default
      variances and with Q = K: its A is U0 Y V' for a K x K matrix U0.  The vocabulary has
      sys.float_info.epsilon added. *)
  Definition uy_new (epsilon : R) (featVar topicVar latFeatVar latTopicVar : R) (Y U0 V draws : mat) : uy :=
    {| y_A := fun k f => vsum P (fun p => vsum K (fun j => U0 k j * Y j p) * V f p)%R; y_varA := scalar (1 / 100); y_Y := Y; y_sigY := eye;
       y_sigT := scalar topicVar; y_U := V; y_vocab := fun k t => (norm_rows T draws k t + epsilon)%R;
       y_topicVar := (1 / 100)%R; y_featVar := (1 / 100)%R; y_lowTopicVar := 1%R; y_lowFeatVar := 1%R |}.

  (** Line 152. *)
  Definition uy_sigY (m : uy) : res mat :=
    la_inv inv P (fun p q => scalar (1 / y_lowFeatVar m) p q + 1 / y_featVar m * gram F (y_U m) p q)%R.
  (** Line 155. *)
  Definition uy_Y (A U sigY : mat) : mat := fun k p => vsum P (fun q => vsum F (fun f => A k f * U f q) * sigY q p)%R.
  (** Line 160. *)
  Definition uy_A (varA X lmda U Y : mat) : mat := fun k f =>
    vsum F (fun g => varA f g * (vsum D (fun d => X d g * lmda d k) + vsum P (fun p => U g p * Y k p)))%R.
  (** Line 184. *)
  Definition uy_U (sigT Y A : mat) : res mat :=
    do N <- la_inv inv P (fun p q => scalar (vsum K (fun k => sigT k k)) p q + gram K Y p q)%R;
    Ok (fun f p => vsum P (fun q => N p q * vsum K (fun k => Y k q * A k f)))%R.
  (** Lines 201-208. *)
  Definition uy_sigT (X lmda nu A U Y : mat) : mat := fun i j =>
    let A_diff := fun k f => (A k f - vsum P (fun p => Y k p * U f p))%R in
    let diff := fun d k => (lmda d k - vsum F (fun f => X d f * A k f))%R in
    (1 / INR P * vsum P (fun p => Y i p * Y j p) + 1 / INR F * vsum F (fun f => A_diff i f * A_diff j f)
     + 1 / INR D * vsum D (fun d => diff d i * diff d j) + (if i =? j then 1 / INR D * vsum D (fun d => nu d i) else 0))%R.

  (** One iteration, lines 140-211; the calls of query (lines 167-172) and the update of the
      vocabulary (lines 189-197) are comments. *)
  Definition uy_iter (varA X lmda nu : mat) (m : uy) : res uy :=
    do sigY <- uy_sigY m;
    let Y := uy_Y (y_A m) (y_U m) sigY in
    let A := uy_A varA X lmda (y_U m) Y in
    do U <- uy_U (y_sigT m) Y A;
    Ok {| y_A := A; y_varA := varA; y_Y := Y; y_sigY := sigY; y_sigT := uy_sigT X lmda nu A U Y; y_U := U; y_vocab := y_vocab m;
          y_topicVar := y_topicVar m; y_featVar := y_featVar m; y_lowTopicVar := y_lowTopicVar m; y_lowFeatVar := y_lowFeatVar m |}.

  Variable looked : nat -> bool.                                (* iteration == logIter, line 216; depends on the plan only *)
  Variable elbo : uy -> uy_query -> mat -> mat -> res R.        (* varBound, line 221, and log_likelihood, line 222 *)
  Variable epsilon : R.
  (** Lines 140-240. *)
  Fixpoint uy_loop (fuel i : nat) (W X varA : mat) (q : uy_query) (lmda : mat) (last : R) (m : uy) : res uy :=
    match fuel with
    | 0 => Ok m
    | S fuel =>
        do m <- uy_iter varA X lmda (y_nu q) m;
        if looked i then
          do e <- elbo m q X W;
          if rltb (Rabs (e - last)) epsilon then Ok m else uy_loop fuel (S i) W X varA q lmda e m
        else uy_loop fuel (S i) W X varA q lmda last m
    end.

  (** Lines 86-251; the logs are empty and unnamed when nothing is to be logged (lines
      94-101), and a plot needs them (line 248). *)
  Definition uy_train (huge : R) (logs plot : bool) (iterations : nat) (W X : mat) (m : uy) (draws : mat) : res (uy * uy_query) :=
    let q := {| y_expLmda := fun d k => exp (draws d k); y_nu := fun _ _ => 1%R; y_lxi := fun _ _ => neg_jakkola 1; y_s := fun _ => 0%R;
                y_docLen := fun d => vsum T (W d) |} in
    do varA <- la_inv inv F (fun f g => scalar (1 / y_featVar m) f g + gram D X f g)%R;
    let lmda := fun d k => ln (y_expLmda q d k) in
    do m <- uy_loop iterations 0 W X varA q lmda (- huge) {| y_A := y_A m; y_varA := varA; y_Y := y_Y m; y_sigY := y_sigY m; y_sigT := y_sigT m;
      y_U := y_U m; y_vocab := y_vocab m; y_topicVar := y_topicVar m; y_featVar := y_featVar m; y_lowTopicVar := y_lowTopicVar m; y_lowFeatVar := y_lowFeatVar m |};
    if plot && negb logs then Raise UnboundLocalError
    else Ok (m, {| y_expLmda := lmda; y_nu := y_nu q; y_lxi := y_lxi q; y_s := y_s q; y_docLen := y_docLen q |}).
End uy.
