(** * Model of the bounds that the models with Böhning's bound report: var_bound of
    /repo/sidetopics/model/ctm_bohning.py lines 383-452 of stm_yv_bohning.py lines
    432-508 and of mtm2.py lines 434-511.

    Real numbers as in CtmModel.  The inverse and the determinants of scipy are
    arguments.  USE_NIW_PRIOR is False (ctm_bohning.py line 46, mtm2.py line 44). *)
From Coq Require Import List Reals Arith Bool.
From Verif Require Import Base RealModel VbModel LinkModel CtmModel MomModel.
From Verif Require MtmModel.
Import ListNotations.
Open Scope nat_scope.

Definition ln_2_pi : R := ln (2 * PI)%R.
Definition ln_2_pi_e : R := ln (2 * PI * exp 1)%R.
Definition trace (n : nat) (M : mat) : R := vsum n (fun i => M i i).
(** np.sum(x.dot(S) * x) for one row. *)
Definition square (K : nat) (S : mat) (x : vec) : R := vsum K (fun k => (vsum K (fun j => x j * S j k) * x k)%R).

Section bounds.
  Variables K D T : nat.
  Variable W : mat.
  Variable n : vec.
  Variable tiny_float : R.

  (** ctm_bohning.py lines 433-448, stm_yv_bohning.py lines 492-505, mtm2.py lines
      488-508: the words.  [A] is the matrix of the bound.  scaledSelfSoftDot does not
      use the scale (see C73). *)
  Definition word_part (A : mat) (vocab means : mat) : R :=
    let e := exp_means K means in
    let V := token_weights K T W e vocab in
    (vsum D (fun d => n d * ln (vsum K (e d)))
     + vsum D (fun d => vsum T (fun t => W d t * safe_ln tiny_float (vsum K (fun k => e d k * vocab k t))))
     + vsum D (fun d => vsum K (fun k => means d k * V d k))
     + vsum D (fun d => vsum K (fun k => 2 * n d * vsum K (fun j => means d j * A j k) * means d k))
     - 2 * vsum D (fun d => vsum K (fun k => means d k * vsoftmax K (means d) k))
     - 5 / 10 * vsum D (fun d => vsum K (fun k => n d * V d k * A k k))
     - vsum D (fun d => vsum K (fun k => means d k * V d k)))%R.

  (** ctm_bohning.py lines 424-428 and mtm2.py lines 479-483, with [isigT] and [det]
      the inverse and the determinant of the covariance. *)
  Definition topic_bound (A isigT : mat) (det : R) (mu : vec) (vocab means varcs : mat) : R :=
    (- (INR D * INR K / 2 * ln_2_pi)
     - INR D / 2 * det
     - 5 / 10 * vsum D (fun d => square K isigT (fun k => means d k - mu k))
     - 5 / 10 * vsum D (fun d => vsum K (fun k => varcs d k * isigT k k))
     + word_part A vocab means)%R.

  Definition ctm_bound := topic_bound (bohning K).
  (** In mtm2.py the weights of the links are computed (lines 495-496) and not used. *)
  Definition mtm2_bound := topic_bound (MtmModel.mtm_A K).

  (** stm_yv_bohning.py. *)
  Definition stm_bound (P F : nat) (X XTX A Y V R_A R_Y sigT isigT vocab : mat) (fv lfv det_A det_Y : R) (means varcs : mat) : R :=
    let lnDetSigT := vsum K (fun k => ln (sigT k k)) in
    let YV : mat := fun k f => vsum P (fun p => Y k p * V p f)%R in
    (* lines 457-465 *)
    (- (INR P * INR K / 2 * ln_2_pi) - INR P * lnDetSigT - INR K * INR P * ln lfv
     - 5 / 10 * vsum K (fun k => vsum P (fun p => 1 / lfv * vsum K (fun j => isigT k j * Y j p) * Y k p))
     - 5 / 10 * INR K * trace P R_Y
     + (5 / 10 * ln_2_pi_e + INR P / 2 * lnDetSigT + INR K / 2 * ln det_Y)
     (* lines 468-476 *)
     - INR F * INR K / 2 * ln_2_pi - INR F * lnDetSigT - INR K * INR P * ln fv
     - 5 / 10 * vsum K (fun k => vsum F (fun f => 1 / lfv * vsum K (fun j => isigT k j * (A j f - YV j f)) * (A k f - YV k f)))
     - 5 / 10 * INR K * trace F R_A
     + (5 / 10 * ln_2_pi_e + INR F / 2 * lnDetSigT + INR K / 2 * ln det_A)
     (* lines 479-487 *)
     - INR D * INR K / 2 * ln_2_pi - INR D / 2 * lnDetSigT
     - 5 / 10 * vsum D (fun d => square K isigT (fun k => means d k - vsum F (fun f => X d f * A k f)))
     - 5 / 10 * vsum D (fun d => vsum K (fun k => varcs d k * isigT k k))
     - 5 / 10 * INR K * trace F (fun i j => vsum F (fun f => XTX i f * R_A f j))
     + (5 / 10 * INR D * INR K * ln_2_pi_e + 5 / 10 * vsum D (fun d => vsum K (fun k => ln (varcs d k))))
     + word_part (bohning K) vocab means)%R.
End bounds.
