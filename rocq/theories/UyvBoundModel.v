(** * Model of varBound of /repo/sidetopics/model/old/sidetopic_uyv.py, lines 607-753

    Numbers are reals without rounding.  The logarithms of determinants (safe_log_det) are
    arguments.  All of U, V, sigY and omY are there, as in training of this module. *)
From Coq Require Import List Reals ZArith Arith Bool.
From Verif Require Import Base RealModel VbModel LinkModel CtmModel BouchModel UyvModel.
Open Scope nat_scope.

Section bound.
  Variables K Q F P T D : nat.
  Variables sigmaSq alphaSq kappaSq tauSq tiny : R.
  Variable ldet : nat -> mat -> R.
  Variables W X : mat.
  Let n (d : nat) : R := vsum T (W d).
  Let all (g : nat -> nat -> R) : R := vsum D (fun d => vsum K (fun k => g d k)).

  (** safe_log, overflow_safe.py lines 184-205, one element, with a fresh output. *)
  Definition ub_log (x : R) : R := if rltb x tiny then ln tiny else ln x.
  (** Lines 700-719. *)
  Definition ub_words (s : uyv) (q : uyv_query) : R :=
    let lmda := fun d k => ln (u_exp q d k) in
    let xi := fun d k => derive_xi (lmda d k) (u_nu q d k) (u_s q d) in
    let swc := quotient K W (u_exp q) (u_vocab s) in
    (- all (fun d k => n d * lmda d k * u_lxi q d k * lmda d k)
     - all (fun d k => n d * u_nu q d k * u_nu q d k * u_lxi q d k)
     + 2 * all (fun d k => u_s q d * (n d * lmda d k * u_lxi q d k))
     - 5 / 10 * all (fun d k => n d * lmda d k)
     + all (fun d k => lmda d k * u_exp q d k * vsum T (fun t => swc d t * u_vocab s k t))
     - all (fun d k => n d * u_lxi q d k * (u_s q d * u_s q d - xi d k * xi d k))
     + 5 / 10 * all (fun d k => n d * (u_s q d + xi d k))
     - all (fun d k => n d * log1pexp_py (xi d k))
     - vsum D (fun d => n d * u_s q d)
     + vsum D (fun d => vsum T (fun t => swc d t * vsum K (fun k => u_exp q d k * (u_vocab s k t * ub_log (u_vocab s k t))))))%R.
  Definition elements (a b : nat) (A B : mat) : R := vsum a (fun i => vsum b (fun j => A i j * B i j))%R.
  Definition tr_of (a : nat) (A : mat) : R := vsum a (fun i => A i i).
  (** Lines 667-695 and 721-737.  np.kron, line 682, is for one column only (P = 1), where the
      first factor is a number. *)
  Definition ub_rest (s : uyv) (q : uyv_query) : R :=
    let lmda := fun d k => ln (u_exp q d k) in
    let XTX := gram D X in
    let VTV := gram F (u_V s) in
    let UTU := gram K (u_U s) in
    let overTk := (1 / tauSq * (1 / kappaSq))%R in
    let overAs := (1 / alphaSq * (1 / sigmaSq))%R in
    let A_diff := fun k f => (u_A s k f - outer Q P (u_U s) (u_Y s) (u_V s) k f)%R in
    let off := fun d k => (lmda d k - vsum F (fun f => X d f * u_A s k f))%R in
    let factorU := if Q =? Q * P then (VTV 0%nat 0%nat * vsum Q (fun i => vsum Q (fun j => u_sigY s i j * UTU j i)))%R else elements Q Q (u_sigY s) UTU in
    (- (5 / 10) * (INR Q * INR P * ln (2 * PI) + overTk * tr_of Q (u_sigY s) * tr_of P (u_omY s) + overTk * elements Q P (u_Y s) (u_Y s))
     + (- (5 / 10 * INR K * INR F) * ln (2 * PI) - 5 / 10 * INR K * INR F * ln alphaSq - 5 / 10 * INR K * INR F * ln sigmaSq
        - 5 / 10 * (overAs * elements P P (u_omY s) VTV * factorU + vsum F (fun f => vsum F (fun g => XTX f g * u_omA s g f)) * INR K + elements K F A_diff A_diff))
     + (- (5 / 10) * INR D * ln (2 * PI) - 5 / 10 * INR D * INR K * ln sigmaSq
        - 5 / 10 / sigmaSq * (all (u_nu q) + INR D * INR K * elements F F XTX (u_omA s) + elements D K off off))
     + 5 / 10 * (INR P * INR K * ln (2 * PI * exp 1) + INR Q * ldet P (u_omY s) + INR P * ldet Q (u_sigY s))
     + 5 / 10 * (INR F * INR K * ln (2 * PI * exp 1) + INR K * ldet F (u_omA s) + INR F * INR K * ln tauSq)
     + 5 / 10 * (INR K * ln (2 * PI * exp 1) + all (fun d k => ln (u_nu q d k * u_nu q d k))))%R.
  (** Lines 749-751: the entropy of the assignments is zero. *)
  Definition uyv_bound (s : uyv) (q : uyv_query) : R := (ub_rest s q + ub_words s q + 0)%R.
End bound.
