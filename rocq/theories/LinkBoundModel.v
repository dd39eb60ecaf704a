(** * Model of the bound that mtm3 reports: var_bound of /repo/sidetopics/model/mtm3.py
    lines 604-679.

    Real numbers as in CtmModel.  The inverse of the covariance and the logarithms of the
    determinants are arguments, as they are in the code results of scipy and of
    safe_log_det. *)
From Coq Require Import List Reals Arith Bool.
From Verif Require Import Base RealModel VbModel LinkModel CtmModel MtmModel BohBoundModel.
From Verif Require MomModel.
Import ListNotations.
Open Scope nat_scope.

Section bound.
  Variables K D T : nat.
  Variables W L : mat.
  Variable n : vec.
  Variable tiny_float : R.

  (** Lines 623-624. *)
  Definition exp_in (inm : mat) : mat := fun d k => exp (inm d k - vmax D (fun e => inm e k)).
  Definition lse (inm : mat) : vec := fun k => vsum D (fun d => exp_in inm d k).

  (** Line 652: sparseScalarQuotientOfNormedDot, se_fast.pyx lines 345-375 and 651-665,
      without bounds checks.  It reads the in-links, which are document by topic, as if
      they were topic by document (see [read_flat]). *)
  Definition link_weight (out inm : mat) (d l : nat) : res R :=
    if Req_EM_T (L d l) 0 then Ok 0%R
    else
      do p <- sum_reads (fun k => do x <- read_flat K D (exp_in inm) k l; Ok (exp_means K out d k * x / lse inm k)%R) (seq 0 K);
      Ok (L d l / p)%R.
  Definition link_weights (out inm : mat) : res mat :=
    do rows <- mapM (fun d => mapM (link_weight out inm d) (seq 0 D)) (seq 0 D);
    Ok (fun d l => nth l (nth d rows []) 0%R).

  (** x.dot(v.T) for weights [x] over [m] words. *)
  Definition dots (m : nat) (x v : mat) : mat := fun d k => vsum m (fun t => x d t * v k t)%R.
  Definition all_sum (f : mat) : R := vsum D (fun d => vsum K (f d)).
  Definition ln_times (v : mat) : mat := fun k t => (ln (v k t) * v k t)%R.
  (** Lines 661-663 and 667-669. *)
  Definition assignment_entropy (m : nat) (x v e out : mat) : R :=
    (all_sum (fun d k => dots m x v d k * e d k * out d k)
     + all_sum (fun d k => dots m x (ln_times v) d k * e d k)
     - all_sum (fun d k => dots m (fun d t => x d t * MomModel.safe_ln tiny_float (vsum K (fun j => e d j * v j t))) v d k * e d k))%R.
  (** Lines 672-673 and 676-677. *)
  Definition emission (m : nat) (x v e : mat) : R := all_sum (fun d k => e d k * dots m x (ln_times v) d k)%R.

  Definition mtm3_bound (icov : mat) (ln_det_out ln_det odc : R) (mu : vec) (vocab out outv inm inv : mat) (idc : vec) : res R :=
    do x <- link_weights out inm;
    let e := exp_means K out in
    let w := quotient K W e vocab in
    let top_sums : mat := fun d k => (e d k * dots T w vocab d k + e d k * (vsum D (fun l => x d l * exp_in inm l k) / lse inm k))%R in
    let doc_vocab : mat := fun k l => (exp_in inm l k / lse inm k)%R in
    Ok ((* lines 627-631 *)
        - (INR D * INR K / 2 * ln_2_pi) - INR D / 2 * ln_det_out
        - 5 / 10 * vsum D (fun d => square K icov (fun k => out d k - mu k) * 1 / odc)
        - 5 / 10 / odc * all_sum (fun d k => outv d k * icov k k)
        (* line 634 *)
        + 5 / 10 * INR D * INR K * ln_2_pi_e + 5 / 10 * all_sum (fun d k => ln (outv d k))
        (* lines 638-643 *)
        - INR D * INR K / 2 * ln_2_pi - INR D / 2 * ln_det - INR K / 2 * vsum D (fun d => MomModel.safe_ln tiny_float (idc d))
        - 5 / 10 * vsum D (fun d => square K icov (fun k => inm d k - out d k) * / idc d)
        - 5 / 10 * all_sum (fun d k => inv d k * / idc d * icov k k)
        (* line 646 *)
        + 5 / 10 * INR D * INR K * ln_2_pi_e + 5 / 10 * all_sum (fun d k => ln (inv d k))
        (* lines 656-658 *)
        + all_sum (fun d k => out d k * top_sums d k)
        - vsum D (fun d => (n d + out_links D L d) * ln (vsum K (e d)))
        + assignment_entropy T w vocab e out
        + assignment_entropy D x doc_vocab e out
        + emission T w vocab e
        + emission D x doc_vocab e)%R.
End bound.
