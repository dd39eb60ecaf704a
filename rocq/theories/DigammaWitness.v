(** * A function with the properties of the digamma function: increasing, and
    psi (x + 1) = psi x + 1 / x.  It is used as a witness only. *)
From Coq Require Import Reals Lra Lia Arith.
Open Scope R_scope.

(** Partial sums of 1/(i+1) - 1/(y+i). *)
Fixpoint psum (y : R) (n : nat) : R :=
  match n with O => 0 | S m => psum y m + (/ (INR m + 1) - / (y + INR m)) end.

Lemma psum_step y m : 1 <= y -> 0 <= / (INR m + 1) - / (y + INR m) <= (y - 1) * (/ (INR m + 1) * / (INR m + 1)).
Proof.
  intros H. pose proof (pos_INR m) as P.
  assert (A : 0 < / (INR m + 1)) by (apply Rinv_0_lt_compat; lra).
  assert (B : 0 < / (y + INR m)) by (apply Rinv_0_lt_compat; lra).
  assert (C : / (y + INR m) <= / (INR m + 1)) by (apply Rinv_le_contravar; lra).
  split; [lra|].
  replace (/ (INR m + 1) - / (y + INR m)) with ((y - 1) * (/ (INR m + 1) * / (y + INR m))) by (field; split; lra).
  apply Rmult_le_compat_l; [lra|]. apply Rmult_le_compat_l; lra.
Qed.
Lemma psum_growing y : 1 <= y -> Un_growing (psum y).
Proof. intros H n. cbn [psum]. pose proof (psum_step y n H). lra. Qed.
Lemma psum_bound y n : 1 <= y -> psum y (S n) <= (y - 1) * (2 - / (INR n + 1)).
Proof.
  intros H. induction n as [|n IH].
  - cbn [psum INR]. pose proof (psum_step y 0 H) as S. cbn [INR] in S. rewrite !Rplus_0_l, !Rplus_0_r, Rinv_1 in *. lra.
  - change (psum y (S (S n))) with (psum y (S n) + (/ (INR (S n) + 1) - / (y + INR (S n)))).
    pose proof (psum_step y (S n) H) as S. rewrite S_INR in *. pose proof (pos_INR n).
    assert (/ (INR n + 1 + 1) * / (INR n + 1 + 1) <= / (INR n + 1) - / (INR n + 1 + 1)).
    { replace (/ (INR n + 1) - / (INR n + 1 + 1)) with (/ (INR n + 1) * / (INR n + 1 + 1)) by (field; split; lra).
      apply Rmult_le_compat_r; [left; apply Rinv_0_lt_compat; lra|apply Rinv_le_contravar; lra]. }
    assert ((y - 1) * (/ (INR n + 1 + 1) * / (INR n + 1 + 1)) <= (y - 1) * (/ (INR n + 1) - / (INR n + 1 + 1))) by (apply Rmult_le_compat_l; lra).
    lra.
Qed.
Lemma psum_ub y : 1 <= y -> has_ub (psum y).
Proof.
  intros H. exists ((y - 1) * 2). intros x [n ->].
  pose proof (psum_growing y H n) as G. pose proof (psum_bound y n H) as B.
  assert (0 < / (INR n + 1)) by (apply Rinv_0_lt_compat; pose proof (pos_INR n); lra).
  assert ((y - 1) * (2 - / (INR n + 1)) <= (y - 1) * 2) by (apply Rmult_le_compat_l; lra). lra.
Qed.
Definition plimit (y : R) : R := proj1_sig (growing_cv (psum (Rmax 1 y)) (psum_growing _ (Rmax_l 1 y)) (psum_ub _ (Rmax_l 1 y))).
Lemma plimit_cv y : 1 <= y -> Un_cv (psum y) (plimit y).
Proof. intros H. unfold plimit. destruct (growing_cv _ _ _) as [l Hl]. cbn. rewrite Rmax_right in Hl by exact H. exact Hl. Qed.

Definition psi_witness (x : R) : R := plimit (x + 1) - / x.

Lemma psum_shift y n : 0 < y -> psum (y + 1) n = psum y n + / y - / (y + INR n).
Proof.
  intros H. induction n as [|n IH]; [cbn [psum INR]; rewrite Rplus_0_r; lra|]. cbn [psum]. rewrite IH.
  replace (y + 1 + INR n) with (y + INR (S n)) by (rewrite S_INR; ring). lra.
Qed.
Lemma inv_cv y : 0 < y -> Un_cv (fun n => / (y + INR n)) 0.
Proof.
  intros H e He. destruct (archimed (/ e)) as [A _].
  exists (Z.to_nat (up (/ e))). intros n Hn. unfold R_dist. rewrite Rminus_0_r.
  pose proof (pos_INR n). assert (0 < / (y + INR n)) by (apply Rinv_0_lt_compat; lra). rewrite Rabs_right by lra.
  assert (P : 0 < / e) by (apply Rinv_0_lt_compat; exact He).
  assert (/ e < INR n).
  { apply Rlt_le_trans with (IZR (up (/ e))); [lra|]. rewrite INR_IZR_INZ. apply IZR_le.
    assert (0 <= up (/ e))%Z by (apply le_IZR; lra). lia. }
  rewrite <- (Rinv_inv e). apply Rinv_lt_contravar; [apply Rmult_lt_0_compat; lra|lra].
Qed.
Lemma plimit_shift y : 1 <= y -> plimit (y + 1) = plimit y + / y.
Proof.
  intros H. apply (UL_sequence (psum (y + 1))); [apply plimit_cv; lra|].
  assert (C : Un_cv (fun n => psum y n + / y - / (y + INR n)) (plimit y + / y - 0)).
  { apply CV_minus; [apply CV_plus; [apply plimit_cv; exact H|]|apply inv_cv; lra].
    intros e He. exists O. intros n _. unfold R_dist. rewrite Rminus_diag_eq, Rabs_R0 by reflexivity. exact He. }
  rewrite Rminus_0_r in C. intros e He. destruct (C e He) as [N HN]. exists N. intros n Hn. rewrite psum_shift by lra. apply HN, Hn.
Qed.
Lemma plimit_monotone y y' : 1 <= y -> y <= y' -> plimit y <= plimit y'.
Proof.
  intros H H'. refine (Rle_cv_lim _ (plimit_cv y H) (plimit_cv y' ltac:(lra))).
  intros n. induction n as [|n IH]; cbn [psum]; [lra|]. pose proof (pos_INR n).
  assert (/ (y' + INR n) <= / (y + INR n)) by (apply Rinv_le_contravar; lra). lra.
Qed.
Lemma psi_witness_increasing x y : 0 < x -> x < y -> psi_witness x < psi_witness y.
Proof.
  intros Hx Hy. unfold psi_witness. pose proof (plimit_monotone (x + 1) (y + 1) ltac:(lra) ltac:(lra)).
  assert (/ y < / x) by (apply Rinv_lt_contravar; [apply Rmult_lt_0_compat; lra|lra]). lra.
Qed.
Lemma psi_witness_recurrence x : 0 < x -> psi_witness (x + 1) = psi_witness x + / x.
Proof.
  intros Hx. unfold psi_witness. rewrite (plimit_shift (x + 1)) by lra. lra.
Qed.
