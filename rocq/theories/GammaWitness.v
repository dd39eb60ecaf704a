(** * The logarithm of the gamma function and the digamma function exist: limits of
    Euler's product.  Used as witnesses only. *)
From Coq Require Import Reals Ranalysis5 ZArith Arith Lra Lia.
From Verif Require Import BoundSpec RealProofs GammaProofs.
Open Scope R_scope.

Lemma Rabs_le_inv a b : Rabs a <= b -> - b <= a <= b.
Proof. unfold Rabs. destruct (Rcase_abs a); lra. Qed.

Definition stp (n : nat) : R := / (INR n + 1) - / (INR n + 2).
Lemma stp_nonneg n : 0 <= stp n.
Proof. unfold stp. pose proof (pos_INR n). assert (/ (INR n + 2) <= / (INR n + 1)) by (apply Rinv_le_contravar; lra). lra. Qed.
Lemma sq_stp n : / (INR n + 1) * / (INR n + 1) <= 2 * stp n.
Proof.
  unfold stp. pose proof (pos_INR n).
  replace (2 * (/ (INR n + 1) - / (INR n + 2))) with (/ (INR n + 1) * (2 * / (INR n + 2))) by (field; lra).
  apply Rmult_le_compat_l; [left; apply Rinv_0_lt_compat; lra|].
  apply (Rmult_le_reg_r ((INR n + 1) * (INR n + 2))); [apply Rmult_lt_0_compat; lra|].
  replace (/ (INR n + 1) * ((INR n + 1) * (INR n + 2))) with (INR n + 2) by (field; lra).
  replace (2 * / (INR n + 2) * ((INR n + 1) * (INR n + 2))) with (2 * (INR n + 1)) by (field; lra). lra.
Qed.

Section Limit.
  Context (f : nat -> R) (M : R) (HM : 0 <= M) (H : forall n, Rabs (f (S n) - f n) <= M * stp n).
  Lemma close n m : Rabs (f (n + m)%nat - f n) <= M * (/ (INR n + 1) - / (INR (n + m) + 1)).
  Proof.
    induction m as [|m IH]; [rewrite Nat.add_0_r; unfold Rminus; rewrite !Rplus_opp_r, Rabs_R0; lra|].
    replace (n + S m)%nat with (S (n + m)) by lia. specialize (H (n + m)%nat). unfold stp in H. rewrite S_INR.
    replace (f (S (n + m)) - f n) with ((f (S (n + m)) - f (n + m)%nat) + (f (n + m)%nat - f n)) by ring.
    eapply Rle_trans; [apply Rabs_triang|]. replace (INR (n + m) + 1 + 1) with (INR (n + m) + 2) by ring. lra.
  Qed.
  Lemma close' n m : (n <= m)%nat -> Rabs (f m - f n) <= M / (INR n + 1).
  Proof.
    intros L. replace m with (n + (m - n))%nat by lia. eapply Rle_trans; [apply close|]. unfold Rdiv. apply Rmult_le_compat_l; [exact HM|].
    pose proof (pos_INR (n + (m - n))). assert (0 < / (INR (n + (m - n)) + 1)) by (apply Rinv_0_lt_compat; lra). lra.
  Qed.
  Lemma limit_cauchy : Cauchy_crit f.
  Proof.
    intros e He. destruct (INR_above (2 * M / e)) as [N HN]. exists N. intros n m Hn Hm.
    assert (A : forall k, (N <= k)%nat -> Rabs (f k - f N) < e / 2).
    { intros k Hk. eapply Rle_lt_trans; [apply close', Hk|]. pose proof (pos_INR N). apply (Rmult_lt_reg_r (INR N + 1)); [lra|].
      unfold Rdiv. rewrite Rmult_assoc, Rinv_l by lra. apply (Rmult_lt_compat_r (e / 2)) in HN; [|lra].
      replace (2 * M / e * (e / 2)) with M in HN by (field; lra). lra. }
    pose proof (A n Hn) as An. pose proof (A m Hm) as Am. unfold R_dist. apply Rabs_def2 in An. apply Rabs_def2 in Am. apply Rabs_def1; lra.
  Qed.
  Definition limit : R := proj1_sig (R_complete f limit_cauchy).
  Lemma limit_cv : Un_cv f limit.
  Proof. unfold limit. destruct (R_complete f limit_cauchy) as [l Hl]. exact Hl. Qed.
  Lemma limit_close n : Rabs (limit - f n) <= M / (INR n + 1).
  Proof.
    apply Rnot_lt_le. intros L. set (e := Rabs (limit - f n) - M / (INR n + 1)).
    destruct (limit_cv (e / 2) ltac:(unfold e; lra)) as [N HN]. specialize (HN (max n N) ltac:(lia)). unfold R_dist in HN.
    pose proof (close' n (max n N) ltac:(lia)) as C.
    assert (Rabs (limit - f n) <= Rabs (f (max n N) - limit) + Rabs (f (max n N) - f n)); [|unfold e in *; lra].
    rewrite (Rabs_minus_sym (f (max n N)) limit). eapply Rle_trans; [|apply Rabs_triang]. right. f_equal. ring.
  Qed.
End Limit.

Lemma squeeze X C : (forall n, X <= C / (INR n + 1)) -> X <= 0.
Proof.
  intros H. apply Rnot_lt_le. intros L. destruct (INR_above (C / X)) as [n Hn]. specialize (H n). pose proof (pos_INR n).
  apply (Rmult_le_compat_r (INR n + 1)) in H; [|lra]. unfold Rdiv in H. rewrite Rmult_assoc, Rinv_l in H by lra.
  apply (Rmult_lt_compat_r X) in Hn; [|lra]. replace (C / X * X) with C in Hn by (field; lra). lra.
Qed.

(** ** Logarithms *)
Lemma ln1p_lo u : 0 <= u -> u / (1 + u) <= ln (1 + u).
Proof.
  intros H. pose proof (ln_le_sub1 (/ (1 + u)) ltac:(apply Rinv_0_lt_compat; lra)) as L. rewrite ln_Rinv in L by lra.
  replace (u / (1 + u)) with (1 - / (1 + u)) by (field; lra). lra.
Qed.
Lemma ln1p_hi u : 0 <= u -> ln (1 + u) <= u.
Proof. intros H. pose proof (ln_le_sub1 (1 + u) ltac:(lra)). lra. Qed.
Lemma ln_concave x y s : 0 < x -> 0 < y -> 0 <= s <= 1 -> (1 - s) * ln x + s * ln y <= ln ((1 - s) * x + s * y).
Proof.
  intros Hx Hy Hs. set (z := (1 - s) * x + s * y).
  assert (0 <= (1 - s) * x) by (apply Rmult_le_pos; lra). assert (0 <= s * y) by (apply Rmult_le_pos; lra).
  assert (Hz : 0 < z).
  { unfold z. destruct (Rle_lt_dec s (1 / 2)).
    - assert (0 < (1 - s) * x) by (apply Rmult_lt_0_compat; lra). lra.
    - assert (0 < s * y) by (apply Rmult_lt_0_compat; lra). lra. }
  assert (T : forall u, 0 < u -> ln u <= ln z + (u / z - 1)).
  { intros u Hu. pose proof (ln_le_sub1 (u / z) ltac:(apply Rdiv_lt_0_compat; lra)) as L.
    unfold Rdiv in L at 1. rewrite ln_mult, ln_Rinv in L; try lra. apply Rinv_0_lt_compat, Hz. }
  pose proof (Rmult_le_compat_l (1 - s) _ _ ltac:(lra) (T x Hx)) as A. pose proof (Rmult_le_compat_l s _ _ ltac:(lra) (T y Hy)) as B.
  assert (E : (1 - s) * (x / z - 1) + s * (y / z - 1) = 0) by (unfold z in *; field; lra). lra.
Qed.

(** ** The function: partial sums *)
Definition bi (i : nat) : R := / (INR i + 1).
Lemma bi_pos i : 0 < bi i.
Proof. apply Rinv_0_lt_compat. pose proof (pos_INR i). lra. Qed.
Definition term (i : nat) (x : R) : R := x * ln (1 + bi i) - ln (1 + x * bi i).
Fixpoint part (n : nat) (x : R) : R := match n with O => 0 | S m => part m x + term m x end.
Definition dterm (i : nat) (x : R) : R := ln (1 + bi i) - / (1 + x * bi i) * bi i.
Fixpoint dpart (n : nat) (x : R) : R := match n with O => 0 | S m => dpart m x + dterm m x end.

Lemma term_bound i x : 0 <= x -> Rabs (term i x) <= 2 * (x * x + x) * stp i.
Proof.
  intros Hx. pose proof (bi_pos i) as B. set (b := bi i) in *. assert (XB : 0 <= x * b) by (apply Rmult_le_pos; lra).
  pose proof (ln1p_lo b ltac:(lra)). pose proof (ln1p_hi b ltac:(lra)). pose proof (ln1p_lo (x * b) XB). pose proof (ln1p_hi (x * b) XB).
  pose proof (sq_stp i) as S. change (/ (INR i + 1)) with b in S.
  assert (S2 : (x * x + x) * (b * b) <= 2 * (x * x + x) * stp i).
  { assert (0 <= x * x + x) by (assert (0 <= x * x) by (apply Rmult_le_pos; lra); lra).
    pose proof (Rmult_le_compat_l _ _ _ H3 S). lra. }
  assert (A1 : x * (b / (1 + b)) <= x * ln (1 + b)) by (apply Rmult_le_compat_l; lra).
  assert (A2 : x * ln (1 + b) <= x * b) by (apply Rmult_le_compat_l; lra).
  assert (P1 : x * b - x * b / (1 + x * b) <= (x * x) * (b * b)).
  { replace (x * b - x * b / (1 + x * b)) with ((x * x) * (b * b) * / (1 + x * b)) by (field; lra).
    rewrite <- (Rmult_1_r (x * x * (b * b))) at 2. apply Rmult_le_compat_l; [repeat apply Rmult_le_pos; lra|].
    rewrite <- Rinv_1. apply Rinv_le_contravar; lra. }
  assert (P2 : x * b - x * (b / (1 + b)) <= x * (b * b)).
  { replace (x * b - x * (b / (1 + b))) with (x * (b * b) * / (1 + b)) by (field; lra).
    rewrite <- (Rmult_1_r (x * (b * b))) at 2. apply Rmult_le_compat_l; [repeat apply Rmult_le_pos; lra|].
    rewrite <- Rinv_1. apply Rinv_le_contravar; lra. }
  assert (0 <= x * (b * b)) by (repeat apply Rmult_le_pos; lra). assert (0 <= x * x * (b * b)) by (repeat apply Rmult_le_pos; lra).
  unfold term. fold b. apply Rabs_le. lra.
Qed.
Lemma dterm_bound i x : 0 <= x -> Rabs (dterm i x) <= 2 * (x + 1) * stp i.
Proof.
  intros Hx. pose proof (bi_pos i) as B. set (b := bi i) in *. assert (XB : 0 <= x * b) by (apply Rmult_le_pos; lra).
  pose proof (ln1p_lo b ltac:(lra)). pose proof (ln1p_hi b ltac:(lra)).
  pose proof (sq_stp i) as S. change (/ (INR i + 1)) with b in S.
  assert (S2 : (x + 1) * (b * b) <= 2 * (x + 1) * stp i) by (pose proof (Rmult_le_compat_l (x + 1) _ _ ltac:(lra) S); lra).
  assert (P1 : b - / (1 + x * b) * b <= x * (b * b)).
  { replace (b - / (1 + x * b) * b) with (x * (b * b) * / (1 + x * b)) by (field; lra).
    rewrite <- (Rmult_1_r (x * (b * b))) at 2. apply Rmult_le_compat_l; [repeat apply Rmult_le_pos; lra|].
    rewrite <- Rinv_1. apply Rinv_le_contravar; lra. }
  assert (P2 : b - b / (1 + b) <= b * b).
  { replace (b - b / (1 + b)) with (b * b * / (1 + b)) by (field; lra).
    rewrite <- (Rmult_1_r (b * b)) at 2. apply Rmult_le_compat_l; [repeat apply Rmult_le_pos; lra|].
    rewrite <- Rinv_1. apply Rinv_le_contravar; lra. }
  assert (P3 : / (1 + x * b) * b <= b).
  { apply Rle_trans with (1 * b); [|lra]. apply Rmult_le_compat_r; [lra|]. rewrite <- Rinv_1. apply Rinv_le_contravar; lra. }
  assert (0 <= x * (b * b)) by (repeat apply Rmult_le_pos; lra). assert (0 <= b * b) by (apply Rmult_le_pos; lra).
  unfold dterm. fold b. apply Rabs_le. lra.
Qed.

Definition cut (x : R) : R := Rmax 0 x.
Lemma cut_nonneg x : 0 <= cut x. Proof. apply Rmax_l. Qed.
Lemma cut_id x : 0 <= x -> cut x = x. Proof. apply Rmax_right. Qed.
Definition Mt (x : R) : R := 2 * (x * x + x).
Definition Md (x : R) : R := 2 * (x + 1).
Lemma Mt_nonneg x : 0 <= x -> 0 <= Mt x.
Proof. intros H. unfold Mt. assert (0 <= x * x) by (apply Rmult_le_pos; lra). lra. Qed.
Lemma part_step x : 0 <= x -> forall n, Rabs (part (S n) x - part n x) <= Mt x * stp n.
Proof. intros H n. cbn [part]. replace (part n x + term n x - part n x) with (term n x) by ring. apply term_bound, H. Qed.
Lemma dpart_step x : 0 <= x -> forall n, Rabs (dpart (S n) x - dpart n x) <= Md x * stp n.
Proof. intros H n. cbn [dpart]. replace (dpart n x + dterm n x - dpart n x) with (dterm n x) by ring. apply dterm_bound, H. Qed.
Lemma Md_nonneg x : 0 <= x -> 0 <= Md x. Proof. unfold Md. lra. Qed.

Definition lnGamma (x : R) : R :=
  - ln x + limit (fun n => part n (cut x)) (Mt (cut x)) (Mt_nonneg _ (cut_nonneg x)) (part_step _ (cut_nonneg x)).
Definition digamma (x : R) : R :=
  - / x + limit (fun n => dpart n (cut x)) (Md (cut x)) (Md_nonneg _ (cut_nonneg x)) (dpart_step _ (cut_nonneg x)).

Definition gp (n : nat) (x : R) : R := - ln x + part n x.
Definition dp (n : nat) (x : R) : R := - / x + dpart n x.
Lemma lnGamma_close x n : 0 < x -> Rabs (lnGamma x - gp n x) <= Mt x / (INR n + 1).
Proof.
  intros H. unfold lnGamma, gp. pose proof (limit_close (fun n => part n (cut x)) (Mt (cut x)) (Mt_nonneg _ (cut_nonneg x)) (part_step _ (cut_nonneg x)) n) as L.
  set (l := limit _ _ _ _) in *. rewrite (cut_id x) in L by lra. cbv beta in L. replace (- ln x + l - (- ln x + part n x)) with (l - part n x) by ring. exact L.
Qed.
Lemma digamma_close x n : 0 < x -> Rabs (digamma x - dp n x) <= Md x / (INR n + 1).
Proof.
  intros H. unfold digamma, dp. pose proof (limit_close (fun n => dpart n (cut x)) (Md (cut x)) (Md_nonneg _ (cut_nonneg x)) (dpart_step _ (cut_nonneg x)) n) as L.
  set (l := limit _ _ _ _) in *. rewrite (cut_id x) in L by lra. cbv beta in L. replace (- / x + l - (- / x + dpart n x)) with (l - dpart n x) by ring. exact L.
Qed.

(** ** Convexity and the recurrence *)
Lemma mid_pos x y s : 0 < x -> 0 < y -> 0 <= s <= 1 -> 0 < (1 - s) * x + s * y.
Proof.
  intros Hx Hy Hs. assert (0 <= (1 - s) * x) by (apply Rmult_le_pos; lra). assert (0 <= s * y) by (apply Rmult_le_pos; lra).
  destruct (Rle_lt_dec s (1 / 2)).
  - assert (0 < (1 - s) * x) by (apply Rmult_lt_0_compat; lra). lra.
  - assert (0 < s * y) by (apply Rmult_lt_0_compat; lra). lra.
Qed.
Lemma part_convex n x y s : 0 < x -> 0 < y -> 0 <= s <= 1 -> part n ((1 - s) * x + s * y) <= (1 - s) * part n x + s * part n y.
Proof.
  intros Hx Hy Hs. induction n as [|n IH]; cbn [part]; [lra|]. unfold term. pose proof (bi_pos n) as B. set (b := bi n) in *.
  assert (P : forall u, 0 < u -> 0 < 1 + u * b) by (intros u Hu; assert (0 < u * b) by (apply Rmult_lt_0_compat; lra); lra).
  pose proof (ln_concave (1 + x * b) (1 + y * b) s (P x Hx) (P y Hy) Hs) as L.
  replace ((1 - s) * (1 + x * b) + s * (1 + y * b)) with (1 + ((1 - s) * x + s * y) * b) in L by ring. lra.
Qed.
Lemma lnGamma_convex : convex lnGamma.
Proof.
  intros x y s Hx Hy Hs. pose proof (mid_pos x y s Hx Hy Hs) as Hz. set (z := (1 - s) * x + s * y) in *.
  assert (lnGamma z - ((1 - s) * lnGamma x + s * lnGamma y) <= 0); [|lra].
  apply squeeze with (Mt z + Mt x + Mt y). intros n.
  pose proof (lnGamma_close x n Hx) as A. pose proof (lnGamma_close y n Hy) as B. pose proof (lnGamma_close z n Hz) as C.
  assert (D : gp n z <= (1 - s) * gp n x + s * gp n y).
  { unfold gp. pose proof (ln_concave x y s Hx Hy Hs) as L. fold z in L. pose proof (part_convex n x y s Hx Hy Hs) as Q. fold z in Q. lra. }
  pose proof (pos_INR n) as P. set (k := / (INR n + 1)). assert (Pk : 0 < k) by (apply Rinv_0_lt_compat; lra). unfold Rdiv in *. fold k in A, B, C |- *.
  assert (A1 : gp n x - Mt x * k <= lnGamma x) by (apply Rabs_le_inv in A; lra).
  assert (B1 : gp n y - Mt y * k <= lnGamma y) by (apply Rabs_le_inv in B; lra).
  assert (C1 : lnGamma z <= gp n z + Mt z * k) by (apply Rabs_le_inv in C; lra).
  pose proof (Rmult_le_compat_l (1 - s) _ _ ltac:(lra) A1) as A2. pose proof (Rmult_le_compat_l s _ _ ltac:(lra) B1) as B2.
  assert (0 <= s * (Mt x * k)) by (apply Rmult_le_pos; [lra|apply Rmult_le_pos; [apply Mt_nonneg; lra|lra]]).
  assert (0 <= (1 - s) * (Mt y * k)) by (apply Rmult_le_pos; [lra|apply Rmult_le_pos; [apply Mt_nonneg; lra|lra]]). lra.
Qed.

Lemma part_shift n x : 0 < x -> part n (x + 1) = part n x + ln (INR n + 1) - ln (x + 1 + INR n) + ln (x + 1).
Proof.
  intros Hx. induction n as [|n IH]; [cbn [part INR]; rewrite !Rplus_0_l, Rplus_0_r, ln_1; ring|].
  cbn [part]. rewrite IH. unfold term, bi. pose proof (pos_INR n). set (m := INR n) in *.
  rewrite S_INR. fold m.
  replace (1 + (x + 1) * / (m + 1)) with ((x + 1 + (m + 1)) * / (m + 1)) by (field; lra).
  replace (1 + x * / (m + 1)) with ((x + 1 + m) * / (m + 1)) by (field; lra).
  replace (1 + / (m + 1)) with ((m + 1 + 1) * / (m + 1)) by (field; lra).
  assert (0 < / (m + 1)) by (apply Rinv_0_lt_compat; lra).
  rewrite !ln_mult by lra. rewrite ln_Rinv by lra. ring.
Qed.
Lemma lnGamma_rec : gamma_like lnGamma.
Proof.
  intros x Hx.
  assert (D : forall n, Rabs (gp n (x + 1) - gp n x - ln x) <= x / (INR n + 1)).
  { intros n. unfold gp. rewrite (part_shift n x Hx). pose proof (pos_INR n).
    replace (- ln (x + 1) + (part n x + ln (INR n + 1) - ln (x + 1 + INR n) + ln (x + 1)) - (- ln x + part n x) - ln x)
      with (- (ln (x + 1 + INR n) - ln (INR n + 1))) by ring. rewrite Rabs_Ropp.
    replace (ln (x + 1 + INR n) - ln (INR n + 1)) with (ln (1 + x / (INR n + 1))).
    - assert (0 <= x / (INR n + 1)) by (apply Rmult_le_pos; [lra|left; apply Rinv_0_lt_compat; lra]).
      rewrite Rabs_right; [apply ln1p_hi; assumption|]. apply Rle_ge. eapply Rle_trans; [|apply ln1p_lo; assumption].
      apply Rmult_le_pos; [assumption|left; apply Rinv_0_lt_compat; lra].
    - replace (1 + x / (INR n + 1)) with ((x + 1 + INR n) * / (INR n + 1)) by (field; lra).
      rewrite ln_mult, ln_Rinv; try lra. apply Rinv_0_lt_compat. lra. }
  assert (E : forall u, (forall n, Rabs u <= (Mt (x + 1) + Mt x + x) / (INR n + 1)) -> u = 0).
  { intros u Hu. pose proof (squeeze (Rabs u) _ Hu). pose proof (Rabs_pos u). destruct (Req_dec u 0) as [->|N]; [reflexivity|].
    pose proof (Rabs_pos_lt u N). lra. }
  enough (lnGamma (x + 1) - lnGamma x - ln x = 0) by lra. apply E. intros n.
  pose proof (lnGamma_close (x + 1) n ltac:(lra)) as A. pose proof (lnGamma_close x n Hx) as B. specialize (D n).
  apply Rabs_le_inv in A. apply Rabs_le_inv in B. apply Rabs_le_inv in D. unfold Rdiv in *. apply Rabs_le. lra.
Qed.

(** ** The derivative *)
Lemma line_derivable c x : derivable_pt_lim (fun x => x * c) x c.
Proof.
  intros e He. exists (mkposreal 1 Rlt_0_1). intros h Hh _. replace (((x + h) * c - x * c) / h - c) with 0 by (field; exact Hh).
  rewrite Rabs_R0. exact He.
Qed.
Lemma line_derivable_1 c x : derivable_pt_lim (fun x => 1 + x * c) x c.
Proof.
  intros e He. exists (mkposreal 1 Rlt_0_1). intros h Hh _. replace ((1 + (x + h) * c - (1 + x * c)) / h - c) with 0 by (field; exact Hh).
  rewrite Rabs_R0. exact He.
Qed.
Lemma part_derivable n x : 0 < x -> derivable_pt_lim (part n) x (dpart n x).
Proof.
  intros Hx. induction n as [|n IH]; [exact (derivable_pt_lim_const 0 x)|]. cbn [dpart].
  apply (derivable_pt_lim_plus (part n) (term n)); [exact IH|]. unfold dterm.
  pose proof (bi_pos n) as B. assert (0 < x * bi n) by (apply Rmult_lt_0_compat; lra).
  apply (derivable_pt_lim_minus (fun x => x * ln (1 + bi n)) (fun x => ln (1 + x * bi n))).
  - apply line_derivable.
  - apply (derivable_pt_lim_comp (fun x => 1 + x * bi n) ln x (bi n) (/ (1 + x * bi n))); [|apply derivable_pt_lim_ln; lra].
    apply (line_derivable_1 (bi n)).
Qed.
Lemma gp_derivable n x : 0 < x -> derivable_pt_lim (gp n) x (dp n x).
Proof.
  intros Hx. apply (derivable_pt_lim_plus (fun x => - ln x) (part n)); [|apply part_derivable, Hx].
  apply (derivable_pt_lim_opp ln). apply derivable_pt_lim_ln, Hx.
Qed.
Lemma inv_continuous (h : R -> R) x : h x <> 0 -> continuity_pt h x -> continuity_pt (fun y => / h y) x.
Proof. intros N C. apply (continuity_pt_inv h); assumption. Qed.
Lemma dp_continuous n x : 0 < x -> continuity_pt (dp n) x.
Proof.
  intros Hx. apply (continuity_pt_plus (fun x => - / x) (dpart n)).
  - apply (continuity_pt_opp (fun x => / x)). apply (inv_continuous id); [unfold id; lra|]. apply derivable_continuous_pt, derivable_pt_id.
  - induction n as [|n IH]; [apply continuity_pt_const; intros a b; reflexivity|].
    apply (continuity_pt_plus (dpart n) (dterm n)); [exact IH|]. unfold dterm. pose proof (bi_pos n). assert (0 < x * bi n) by (apply Rmult_lt_0_compat; lra).
    apply (continuity_pt_minus (fun _ => ln (1 + bi n)) (fun x => / (1 + x * bi n) * bi n)); [apply continuity_pt_const; intros a b; reflexivity|].
    apply (continuity_pt_mult (fun x => / (1 + x * bi n)) (fun _ => bi n)); [|apply continuity_pt_const; intros a b; reflexivity].
    apply (inv_continuous (fun x => 1 + x * bi n)); [lra|].
    apply (continuity_pt_plus (fun _ => 1) (fun x => x * bi n)); [apply continuity_pt_const; intros a b; reflexivity|].
    apply (continuity_pt_mult id (fun _ => bi n)); [apply derivable_continuous_pt, derivable_pt_id|apply continuity_pt_const; intros a b; reflexivity].
Qed.

Lemma lnGamma_derivable x : 0 < x -> derivable_pt_lim lnGamma x (digamma x).
Proof.
  intros Hx. set (r := mkposreal (x / 2) ltac:(lra)).
  assert (Q : forall y, Boule x r y -> 0 < y < 2 * x) by (intros y Hy; unfold Boule in Hy; cbn [pos r] in Hy; apply Rabs_def2 in Hy; lra).
  assert (CU : CVU dp digamma x r).
  { intros e He. destruct (INR_above (Md (2 * x) / e)) as [N HN]. exists N. intros n y Hn Hy. destruct (Q y Hy) as [Q1 Q2].
    eapply Rle_lt_trans; [apply digamma_close, Q1|]. pose proof (pos_INR n). apply le_INR in Hn.
    apply (Rmult_lt_reg_r (INR n + 1)); [lra|]. unfold Rdiv. rewrite Rmult_assoc, Rinv_l by lra.
    apply (Rmult_lt_compat_r e) in HN; [|exact He]. replace (Md (2 * x) / e * e) with (Md (2 * x)) in HN by (field; lra).
    assert (INR N * e <= INR n * e) by (apply Rmult_le_compat_r; lra). unfold Md in *. lra. }
  apply (derivable_pt_lim_CVU gp dp lnGamma digamma x x r).
  - unfold Boule. cbn [pos r]. unfold Rminus. rewrite Rplus_opp_r, Rabs_R0. lra.
  - intros y n Hy. apply gp_derivable, Q, Hy.
  - intros y Hy e He. destruct (Q y Hy) as [Q1 _]. destruct (INR_above (Mt y / e)) as [N HN]. exists N. intros n Hn.
    unfold R_dist. rewrite Rabs_minus_sym. eapply Rle_lt_trans; [apply lnGamma_close, Q1|]. pose proof (pos_INR n). apply le_INR in Hn.
    apply (Rmult_lt_reg_r (INR n + 1)); [lra|]. unfold Rdiv. rewrite Rmult_assoc, Rinv_l by lra.
    apply (Rmult_lt_compat_r e) in HN; [|exact He]. replace (Mt y / e * e) with (Mt y) in HN by (field; lra).
    assert (INR N * e <= INR n * e) by (apply Rmult_le_compat_r; lra). lra.
  - exact CU.
  - intros y Hy. apply (CVU_continuity dp digamma x r CU); [|exact Hy]. intros n z Hz. apply dp_continuous, Q, Hz.
Qed.

Theorem lnGamma_log_gamma : log_gamma lnGamma digamma.
Proof. split; [exact lnGamma_rec|split; [exact lnGamma_convex|exact lnGamma_derivable]]. Qed.
