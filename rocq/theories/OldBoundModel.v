(** * Model of varBound, /repo/sidetopics/model/old/sidetopic.py lines 308-419, the bound that
    training prints after every step (lines 287-306).

    Numbers are reals without rounding.  The logarithms of the determinants are arguments. *)
From Coq Require Import List Reals ZArith Arith Bool.
From Verif Require Import Base RealModel VbModel LinkModel CtmModel BouchModel UyvModel OldModel.
Open Scope nat_scope.

(** safe_x_log_x, overflow_safe.py lines 168-181, one element. *)
Definition x_log_x (tiny z : R) : R := (z * (if rltb 0 z then ln z else ln tiny))%R.

Section bound.
  Variables K F T P D : nat.
  Variables tiny sigma tau : R.
  Variables ldetP ldetF : mat -> R.
  Variables W X : mat.
  Let n (d : nat) : R := vsum T (W d).
  Let all (g : nat -> nat -> R) : R := vsum D (fun d => vsum K (fun k => g d k)).

  (** Lines 349-374. *)
  Definition words_part (o : old) (q : old_query) : R :=
    let xi := fun d k => derive_xi (o_lmda q d k) (o_nu q d k) (o_s q d) in
    let lnVocab := old_ln tiny (o_vocab o) in
    let Z := old_Z K (o_lmda q) lnVocab in
    (- all (fun d k => n d * o_lmda q d k * o_lxi q d k * o_lmda q d k)
     - all (fun d k => n d * o_nu q d k * o_nu q d k * o_lxi q d k)
     + 2 * all (fun d k => o_s q d * (n d * o_lmda q d k * o_lxi q d k))
     - 5 / 10 * all (fun d k => n d * o_lmda q d k)
     + all (fun d k => o_lmda q d k * vsum T (fun t => W d t * Z d k t))
     + vsum K (fun k => vsum T (fun t => lnVocab k t * vsum D (fun d => W d t * Z d k t)))
     - vsum D (fun d => vsum T (fun t => W d t * vsum K (fun k => x_log_x tiny (Z d k t))))
     - all (fun d k => n d * o_lxi q d k * (o_s q d * o_s q d - xi d k * xi d k))
     + 5 / 10 * all (fun d k => n d * (o_s q d + xi d k))
     - all (fun d k => n d * log1pexp_py (xi d k)))%R.
  (** Lines 376-385. *)
  Definition topics_part (o : old) (q : old_query) : R :=
    let XA := fun d k => vsum F (fun f => X d f * o_A o f k)%R in
    (- (5 / 10) * INR D * INR K * ln (sigma * sigma)
     - 5 / 10 / (sigma * sigma) * (all (o_nu q) + INR D * INR K * (tau * tau) * vsum F (fun f => vsum F (fun g => gram D X f g * o_varA o f g))
        + all (fun d k => (o_lmda q d k - XA d k) * (o_lmda q d k - XA d k))))%R.
  (** Lines 387-398. *)
  Definition map_part (o : old) : R :=
    let UV := fun f k => vsum P (fun p => o_U o f p * o_V o p k)%R in
    (- (5 / 10) * INR K * INR F * ln (2 * PI) - 5 / 10 * INR K * INR F * ln (tau * tau)
     - 5 / 10 / (tau * tau) * (vsum F (fun f => o_varA o f f) * INR K * (tau * tau)
        + vsum F (fun f => vsum P (fun p => vsum F (fun g => o_varA o f g * o_U o g p) * o_U o f p)) * INR K * (tau * tau)
        + vsum F (fun f => vsum K (fun k => (o_A o f k - UV f k) * (o_A o f k - UV f k)))))%R.
  (** Lines 400-401. *)
  Definition latent_part (o : old) : R :=
    (- (5 / 10) * (vsum P (fun p => o_varV o p p) * INR K * (tau * tau) + vsum P (fun p => vsum K (fun k => o_V o p k * o_V o p k))))%R.
  (** Lines 403-410. *)
  Definition entropies (o : old) (q : old_query) : R :=
    (5 / 10 * all (fun d k => ln (o_nu q d k * o_nu q d k))
     + (5 / 10 * INR F * INR K + ln (2 * PI * exp 1) + 5 / 10 * INR K * ldetF (o_varA o) + 5 / 10 * INR F * INR K * ln (tau * tau))
     + (5 / 10 * INR P * INR K * ln (2 * PI * exp 1) + 5 / 10 * INR K * ldetP (o_varV o) + 5 / 10 * INR P * INR K * ln (tau * tau)))%R.
  (** Line 412. *)
  Definition printed (o : old) (q : old_query) : R := (words_part o q + topics_part o q + map_part o + latent_part o + entropies o q)%R.
End bound.
