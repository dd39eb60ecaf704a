(** * Model of varBound of /repo/sidetopics/model/old/sidetopic_uy.py, lines 357-487

    Numbers are reals without rounding.  scipy's inverse and determinant are arguments.  As
    in a model of this module (UyModel), V and omY are None and sigY is P by P; lines 700-719
    of sidetopic_uyv.py, modelled in UyvBoundModel, have the same text as lines 433-452. *)
From Coq Require Import List Reals ZArith Arith Bool.
From Verif Require Import Base RealModel VbModel LinkModel CtmModel BouchModel UyvModel UyvBoundModel UyModel.
Open Scope nat_scope.

Section bound.
  Variables K F T P D : nat.
  Variables tiny least : R.                      (* 1E-300 of safe_log; sys.float_info.min *)
  Variable inv : nat -> mat -> option mat.       (* la.inv *)
  Variable det : nat -> mat -> R.                (* la.det *)
  Variables W X : mat.

  (** The words' part reads the vocabulary and the topics only. *)
  Definition uy_words (m : uy) (q : uy_query) : R :=
    ub_words K T D tiny W {| u_A := y_A m; u_omA := y_varA m; u_Y := y_Y m; u_omY := eye; u_sigY := y_sigY m; u_U := y_U m; u_V := eye; u_vocab := y_vocab m |}
      {| u_exp := y_expLmda q; u_nu := y_nu q; u_lxi := y_lxi q; u_s := y_s q |}.
  (** Lines 366-487, for a model with Q = K.  sigmaSq is one (line 369), and line 368 takes the
      determinant for its logarithm.  Line 415 multiplies by V when K = 1, as P = K P:
      None has no product.  sigY is P by P after an iteration. *)
  Definition uy_bound (m : uy) (q : uy_query) : res R :=
    do isigT <- la_inv inv K (y_sigT m);
    let lnDet := det K (y_sigT m) in
    let lmda := fun d k => ln (y_expLmda q d k) in
    let XTX := gram D X in
    let UTU := gram F (y_U m) in
    let overTk := (1 / y_lowFeatVar m * (1 / y_lowTopicVar m))%R in
    let A_diff := fun k f => (y_A m k f - vsum P (fun p => y_Y m k p * y_U m f p))%R in
    let off := fun d k => (lmda d k - vsum F (fun f => X d f * y_A m k f))%R in
    if P =? K * P then Raise TypeError else
    Ok (- (5 / 10) * (INR K * INR P * ln (2 * PI) + INR P * lnDet + overTk * tr_of P (y_sigY m) * INR K
          + overTk * vsum K (fun k => vsum P (fun p => vsum K (fun j => isigT k j * y_Y m j p) * y_Y m k p)))
        + (- (5 / 10 * INR K * INR F) * ln (2 * PI) - 5 / 10 * INR K * INR F * ln (y_featVar m) - INR F / 2 * lnDet
           - 5 / 10 * (1 / y_featVar m * elements P P (y_sigY m) UTU + vsum F (fun f => vsum F (fun g => XTX f g * y_varA m g f)) * INR K
                       + vsum K (fun k => vsum F (fun f => vsum K (fun j => isigT k j * A_diff j f) * A_diff k f))))
        + (- (5 / 10) * INR D * ln (2 * PI) - 5 / 10 * INR D * lnDet
           - 5 / 10 * (vsum D (fun d => vsum K (y_nu q d)) + INR D * INR K * elements F F XTX (y_varA m)
                       + vsum D (fun d => vsum K (fun k => vsum K (fun j => off d j * isigT j k) * off d k))))
        + uy_words m q
        + 5 / 10 * (INR P * INR K * ln (2 * PI * exp 1) + INR P * ln (Rmax (det P (y_sigY m)) least))
        + 5 / 10 * (INR K * ln (2 * PI * exp 1) + vsum D (fun d => vsum K (fun k => ln (y_nu q d k * y_nu q d k)))))%R.
End bound.
