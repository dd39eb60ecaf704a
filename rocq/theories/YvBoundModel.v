(** * Model of var_bound of /repo/sidetopics/model/stm_yv.py, lines 416-498

    Numbers are reals without rounding.  The inverse and the determinant of scipy are
    arguments; numbers of float64 are taken for safeDet, overflow_safe.py. *)
From Coq Require Import List Reals ZArith Arith Bool.
From Verif Require Import Base RealModel VbModel LinkModel CtmModel MtmModel BouchModel.
Import ListNotations.
Open Scope nat_scope.

Section yvbound.
  Variables K F P D T : nat.
  Variable inv : mat -> mat.                     (* la.inv, of the covariance of the topics *)
  Variable det : nat -> mat -> R.                (* la.det *)
  Variables least tiny : R.                      (* minPositiveValue; the least positive float *)
  Variables (W X : mat) (n : vec).
  Variables fv lfv : R.

  (** safeDet, overflow_safe.py: what is less than the least value is replaced by it. *)
  Definition safe_det (m : nat) (M : mat) : R := if rltb (det m M) least then least else det m M.
  (** lnDetOfDiagMat, overflow_safe.py. *)
  Definition ln_det_diag (M : mat) : R := vsum K (fun k => ln (M k k)).

  Definition yv_bound (A RA Y RY V sigT vocab : mat) (q : bquery) : R :=
    let isigT := inv sigT in
    let lnDet := ln_det_diag sigT in
    let diffa := fun k f => (A k f - vsum P (fun p => Y k p * V p f))%R in
    let diffm := fun d k => (bq_means q d k - vsum F (fun f => X d f * A k f))%R in
    let e := exp_means K (bq_means q) in
    (* lines 441-445 *)
    (- (INR P * INR K / 2 * ln (2 * PI)) - INR P * lnDet - INR K * INR P * ln lfv
     - 5 / 10 * vsum K (fun k => vsum P (fun p => 1 / lfv * vsum K (fun j => isigT k j * Y j p) * Y k p))
     - 5 / 10 * INR K * vsum P (fun p => RY p p)
    (* lines 448-449 *)
     + (5 / 10 * ln (2 * PI * exp 1) + INR P / 2 * lnDet + INR K / 2 * ln (safe_det P RY))
    (* lines 452-457 *)
     - INR F * INR K / 2 * ln (2 * PI) - INR F * lnDet - INR K * INR P * ln fv
     - 5 / 10 * vsum K (fun k => vsum F (fun f => 1 / lfv * vsum K (fun j => isigT k j * diffa j f) * diffa k f))
     - 5 / 10 * INR K * vsum F (fun f => RA f f)
    (* lines 460-461 *)
     + (5 / 10 * ln (2 * PI * exp 1) + INR F / 2 * lnDet + INR K / 2 * ln (safe_det F RA))
    (* lines 464-469 *)
     - INR D * INR K / 2 * ln (2 * PI) - INR D / 2 * lnDet
     - 5 / 10 * vsum D (fun d => vsum K (fun k => vsum K (fun j => diffm d j * isigT j k) * diffm d k))
     - 5 / 10 * vsum D (fun d => vsum K (fun k => bq_varcs q d k * isigT k k))
     - 5 / 10 * INR K * vsum F (fun f => vsum F (fun g => vsum D (fun d => X d f * X d g) * RA g f))
    (* line 472 *)
     + (5 / 10 * INR D * INR K * ln (2 * PI * exp 1) + 5 / 10 * vsum D (fun d => vsum K (fun k => ln (bq_varcs q d k))))
    (* lines 478-493 *)
     + vsum D (fun d => vsum K (fun k => bound_topic (bq_means q d k) (bq_varcs q d k) (bq_lxi q d k) (bq_s q d)
                                           (derive_xi (bq_means q d k) (bq_varcs q d k) (bq_s q d)) (n d)))
     + vsum D (fun d => vsum T (fun t => W d t * safe_ln tiny (vsum K (fun k => e d k * vocab k t))))
     - vsum D (fun d => bq_s q d * n d))%R.
End yvbound.
