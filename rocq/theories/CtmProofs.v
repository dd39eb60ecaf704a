(** * Inequalities for correlated topic models. *)
From Coq Require Import List Reals ZArith Arith Bool Lra Lia.
From Verif Require Import Base RealModel RealProofs VbModel VbProofs RtmField DmrReal LinkModel LinkProps CtmModel.
Import ListNotations.
Open Scope nat_scope.

(** ** Specification *)
(** The softmax of a vector, the quadratic form of a matrix, and the logarithm of the
    posterior density of the topic means [m] of a document with word counts [w], up to a
    constant, under the normal prior with mean [mu] and precision [P]. *)
Definition softmax (K : nat) (m : vec) : vec := fun k => (exp (m k) / vsum K (fun j => exp (m j)))%R.
Definition quad (K : nat) (P : mat) (x y : vec) : R := vsum K (fun i => vsum K (fun j => x i * P i j * y j))%R.
Definition log_like (K T : nat) (v : mat) (w m : vec) : R :=
  vsum T (fun t => w t * ln (vsum K (fun k => softmax K m k * v k t)))%R.
Definition log_posterior (K T : nat) (v : mat) (mu : vec) (P : mat) (w m : vec) : R :=
  (log_like K T v w m - quad K P (fun k => m k - mu k) (fun k => m k - mu k) / 2)%R.
(** Symmetric and positive semi-definite matrices, and inverses. *)
Definition symm (K : nat) (P : mat) : Prop := forall i j, i < K -> j < K -> P i j = P j i.
Definition psd (K : nat) (P : mat) : Prop := forall x, (0 <= quad K P x x)%R.
Definition is_inverse (K : nat) (M N : mat) : Prop :=
  forall i j, i < K -> j < K -> vsum K (fun l => M i l * N l j)%R = eye i j.
(** A vocabulary: no negative weight, and some topic can produce each word. *)
Definition covers (K T : nat) (v : mat) : Prop :=
  (forall k t, k < K -> t < T -> (0 <= v k t)%R) /\ (forall t, t < T -> exists k, k < K /\ (0 < v k t)%R).

(** ** Sums *)
Lemma vsum_minus m v w : vsum m (fun i => v i - w i)%R = (vsum m v - vsum m w)%R.
Proof.
  rewrite (vsum_ext m (fun i => v i - w i)%R (fun i => v i + (-1) * w i)%R) by (intros; ring).
  rewrite vsum_plus, vsum_scale. ring.
Qed.
Lemma vsum_opp m v : vsum m (fun i => - v i)%R = (- vsum m v)%R.
Proof. rewrite (vsum_ext m (fun i => - v i)%R (fun i => (-1) * v i)%R) by (intros; ring). rewrite vsum_scale. ring. Qed.
Lemma vsum_zero m : vsum m (fun _ => 0%R) = 0%R.
Proof. rewrite vsum_const. ring. Qed.
Lemma vsum_pos_one m v i : i < m -> (forall j, j < m -> (0 <= v j)%R) -> (0 < v i)%R -> (0 < vsum m v)%R.
Proof. intros Hi H0 Hp. pose proof (vsum_in_le m v i H0 Hi). lra. Qed.
Lemma vsum_eye m i v : i < m -> vsum m (fun j => eye i j * v j)%R = v i.
Proof.
  intros Hi. pose proof (shifted_sum m (fun _ => 0%R) (fun _ => 1%R) 1 i (v i) Hi) as E. cbv beta in E.
  rewrite (vsum_ext m _ (fun j => shifted (fun _ => 0%R) 1 i (v i) j * 1)%R).
  - rewrite E, vsum_const. field.
  - intros j _. unfold shifted, eye. rewrite (Nat.eqb_sym i j). destruct (Nat.eqb_spec j i); [subst|]; field.
Qed.

Section softmax.
  Variable K : nat.
  Hypothesis HK : 0 < K.
  Lemma exps_pos m : (0 < vsum K (fun j => exp (m j)))%R.
  Proof. apply vsum_pos; [exact HK|]. intros; apply exp_pos. Qed.
  Lemma softmax_pos m k : (0 < softmax K m k)%R.
  Proof. apply Rdiv_lt_0_compat; [apply exp_pos|apply exps_pos]. Qed.
  Lemma softmax_sum m : vsum K (softmax K m) = 1%R.
  Proof. unfold softmax, Rdiv. rewrite vsum_scale_r. apply Rinv_r. apply Rgt_not_eq, exps_pos. Qed.
  Lemma vsoftmax_is m k : vsoftmax K m k = softmax K m k.
  Proof.
    unfold vsoftmax, softmax. set (c := vmax K m).
    rewrite (vsum_ext K (fun k => exp (m k - c)) (fun k => exp (m k) * exp (- c))%R) by (intros; rewrite <- exp_plus; f_equal; ring).
    rewrite vsum_scale_r. replace (exp (m k - c)) with (exp (m k) * exp (- c))%R by (rewrite <- exp_plus; f_equal; ring).
    pose proof (exps_pos m). pose proof (exp_pos (- c)). field. lra.
  Qed.
End softmax.

Lemma ln_mono x y : (0 < x)%R -> (x <= y)%R -> (ln x <= ln y)%R.
Proof. intros Hx [H|<-]; [left; apply ln_increasing; assumption|right; reflexivity]. Qed.

(** ** Jensen's inequality for the logarithm of an average *)
Lemma jensen K (p x : vec) : (forall k, k < K -> (0 <= p k)%R) -> vsum K p = 1%R ->
  (vsum K (fun k => p k * x k) <= ln (vsum K (fun k => p k * exp (x k))))%R.
Proof.
  intros Hp H1. set (s := vsum K (fun k => p k * x k)%R).
  assert (E : vsum K (fun k => p k * exp (x k))%R = (exp s * vsum K (fun k => p k * exp (x k - s)))%R).
  { rewrite <- vsum_scale. apply vsum_ext. intros k _. unfold Rminus. rewrite exp_plus, exp_Ropp.
    pose proof (exp_pos s). field. lra. }
  assert (1 <= vsum K (fun k => p k * exp (x k - s)))%R.
  { rewrite <- H1. replace (vsum K p) with (vsum K (fun k => p k * (1 + (x k - s)))%R).
    - apply vsum_le. intros k Hk. apply Rmult_le_compat_l; [apply Hp; exact Hk|apply exp_ge_1_plus].
    - rewrite (vsum_ext K _ (fun k => p k + (p k * x k - p k * s))%R) by (intros; ring).
      rewrite vsum_plus, vsum_minus, vsum_scale_r, H1. fold s. ring. }
  pose proof (exp_pos s). rewrite E, ln_mult by lra. rewrite ln_exp.
  assert (0 <= ln (vsum K (fun k => p k * exp (x k - s))))%R by (rewrite <- ln_1; apply ln_mono; lra). lra.
Qed.
(** Weights [a] of several outcomes, and the same weights scaled by exp x. *)
Lemma jensen_ratio K (a x : vec) : (forall k, k < K -> (0 <= a k)%R) -> (0 < vsum K a)%R ->
  (vsum K (fun k => a k / vsum K a * x k) <= ln (vsum K (fun k => a k * exp (x k))) - ln (vsum K a))%R.
Proof.
  intros Ha Hs.
  pose proof (jensen K (fun k => a k / vsum K a)%R x) as J. cbv beta in J.
  assert (P1 : vsum K (fun k => a k / vsum K a)%R = 1%R) by (unfold Rdiv; rewrite vsum_scale_r; apply Rinv_r; lra).
  assert (P0 : forall k, k < K -> (0 <= a k / vsum K a)%R).
  { intros k Hk. apply Rmult_le_pos; [apply Ha; exact Hk|left; apply Rinv_0_lt_compat; exact Hs]. }
  specialize (J P0 P1).
  rewrite (vsum_ext K (fun k => a k / vsum K a * exp (x k))%R (fun k => a k * exp (x k) * / vsum K a)%R) in J by (intros; unfold Rdiv; ring).
  rewrite vsum_scale_r in J.
  assert (0 < vsum K (fun k => a k * exp (x k)))%R.
  { destruct (Rle_lt_dec (vsum K (fun k => a k * exp (x k))%R) 0) as [H|H]; [exfalso|exact H].
    assert (Z : forall k, k < K -> a k = 0%R).
    { intros k Hk. assert (a k * exp (x k) <= 0)%R.
      { refine (Rle_trans _ _ _ (vsum_in_le K (fun k => a k * exp (x k))%R k _ Hk) H).
        intros j Hj. apply Rmult_le_pos; [apply Ha; exact Hj|left; apply exp_pos]. }
      pose proof (Ha k Hk). pose proof (exp_pos (x k)). nra. }
    rewrite (vsum_ext K a (fun _ => 0%R)) in Hs by exact Z. rewrite vsum_zero in Hs. lra. }
  rewrite ln_mult in J by (try apply Rinv_0_lt_compat; assumption). rewrite ln_Rinv in J by exact Hs. lra.
Qed.

(** ** Variances under a distribution *)
Lemma variance_bound K (p x : vec) : (forall k, k < K -> (0 <= p k)%R) -> vsum K p = 1%R ->
  (vsum K (fun k => p k * (x k * x k)) - vsum K (fun k => p k * x k) * vsum K (fun k => p k * x k)
   <= vsum K (fun k => x k * x k) / 2)%R.
Proof.
  intros Hp H1.
  set (E2 := vsum K (fun k => p k * (x k * x k))%R). set (E1 := vsum K (fun k => p k * x k)%R).
  (* the sum over pairs of p_i p_j (x_i - x_j)^2 *)
  assert (A : vsum K (fun i => vsum K (fun j => p i * p j * ((x i - x j) * (x i - x j))))%R = (2 * (E2 - E1 * E1))%R).
  { rewrite (vsum_ext K _ (fun i => p i * (x i * x i) * 1 - 2 * (p i * x i) * E1 + p i * E2)%R).
    - rewrite vsum_plus, vsum_minus, !vsum_scale_r.
      rewrite vsum_scale, H1. fold E1 E2. ring.
    - intros i _. rewrite (vsum_ext K _ (fun j => p i * (x i * x i) * p j - 2 * (p i * x i) * (p j * x j) + p i * (p j * (x j * x j)))%R) by (intros; ring).
      rewrite vsum_plus, vsum_minus, !vsum_scale, H1. fold E1 E2. ring. }
  assert (B : (vsum K (fun i => vsum K (fun j => p i * p j * ((x i - x j) * (x i - x j))))
     <= vsum K (fun i => vsum K (fun j => 2 * (p i * p j * (x i * x i + x j * x j)) - eye i j * (4 * (p j * p j * (x j * x j))))))%R).
  { apply vsum_le. intros i Hi. apply vsum_le. intros j Hj. unfold eye. destruct (Nat.eqb_spec i j) as [->|].
    - replace (x j - x j)%R with 0%R by ring. lra.
    - pose proof (Rmult_le_pos _ _ (Hp i Hi) (Hp j Hj)). pose proof (Rle_0_sqr (x i + x j)). unfold Rsqr in *. nra. }
  assert (C : vsum K (fun i => vsum K (fun j => 2 * (p i * p j * (x i * x i + x j * x j)) - eye i j * (4 * (p j * p j * (x j * x j)))))%R
    = (4 * E2 - 4 * vsum K (fun i => p i * p i * (x i * x i)))%R).
  { rewrite (vsum_ext K _ (fun i => 2 * (p i * (x i * x i)) + 2 * (p i * E2) - 4 * (p i * p i * (x i * x i)))%R).
    - rewrite vsum_minus, vsum_plus, !vsum_scale, vsum_scale_r, H1. fold E2. ring.
    - intros i Hi. rewrite vsum_minus, (vsum_eye K i (fun j => 4 * (p j * p j * (x j * x j)))%R Hi). f_equal.
      rewrite (vsum_ext K _ (fun j => 2 * (p i * (x i * x i)) * p j + 2 * p i * (p j * (x j * x j)))%R) by (intros; ring).
      rewrite vsum_plus, !vsum_scale, H1. fold E2. ring. }
  assert (Dq : (4 * E2 - 4 * vsum K (fun i => p i * p i * (x i * x i)) <= vsum K (fun k => x k * x k))%R).
  { unfold E2. rewrite <- !vsum_scale, <- vsum_minus. apply vsum_le. intros k _.
    pose proof (Rle_0_sqr (2 * p k - 1)). pose proof (Rle_0_sqr (x k)). unfold Rsqr in *. nra. }
  lra.
Qed.

(** The quadratic form of the matrix of Bohning's bound. *)
Lemma bohning_quad K x : quad K (bohning K) x x =
  ((vsum K (fun k => x k * x k) - vsum K x * vsum K x / (INR K + 1)) / 2)%R.
Proof.
  assert (0 < INR K + 1)%R by (pose proof (pos_INR K); lra).
  unfold quad, bohning.
  rewrite (vsum_ext K _ (fun i => x i * x i / 2 - x i * (vsum K x / (2 * (INR K + 1))))%R).
  - rewrite vsum_minus, vsum_scale_r. unfold Rdiv. rewrite vsum_scale_r. field. lra.
  - intros i Hi.
    rewrite (vsum_ext K _ (fun j => eye i j * (x i * x j / 2) - x i * / (2 * (INR K + 1)) * x j)%R) by (intros; field; lra).
    rewrite vsum_minus, (vsum_eye K i (fun j => x i * x j / 2)%R Hi), vsum_scale. field. lra.
Qed.
Lemma shift_square K (x : vec) c : vsum K (fun k => (x k - c) * (x k - c))%R =
  (vsum K (fun k => x k * x k) - 2 * c * vsum K x + INR K * (c * c))%R.
Proof.
  rewrite (vsum_ext K _ (fun k => x k * x k - 2 * c * x k + c * c)%R) by (intros; ring).
  rewrite vsum_plus, vsum_minus, vsum_scale, vsum_const. ring.
Qed.
Lemma variance_bohning K (p x : vec) : 0 < K -> (forall k, k < K -> (0 <= p k)%R) -> vsum K p = 1%R ->
  (vsum K (fun k => p k * (x k * x k)) - vsum K (fun k => p k * x k) * vsum K (fun k => p k * x k) <= quad K (bohning K) x x)%R.
Proof.
  intros HK Hp H1. rewrite bohning_quad.
  set (c := (vsum K x / INR K)%R).
  pose proof (variance_bound K p (fun k => x k - c)%R Hp H1) as V. cbv beta in V. rewrite shift_square in V.
  assert (E2 : vsum K (fun k => p k * ((x k - c) * (x k - c)))%R = (vsum K (fun k => p k * (x k * x k)) - 2 * c * vsum K (fun k => p k * x k) + c * c)%R).
  { rewrite (vsum_ext K _ (fun k => p k * (x k * x k) - 2 * c * (p k * x k) + p k * (c * c))%R) by (intros; ring).
    rewrite vsum_plus, vsum_minus, vsum_scale, vsum_scale_r, H1. ring. }
  assert (E1 : vsum K (fun k => p k * (x k - c))%R = (vsum K (fun k => p k * x k) - c)%R).
  { rewrite (vsum_ext K _ (fun k => p k * x k - p k * c)%R) by (intros; ring). rewrite vsum_minus, vsum_scale_r, H1. ring. }
  rewrite E2, E1 in V.
  assert (HN : (0 < INR K)%R) by (apply lt_0_INR; exact HK).
  assert (G : (vsum K (fun k => x k * x k) - 2 * c * vsum K x + INR K * (c * c) <= vsum K (fun k => x k * x k) - vsum K x * vsum K x / (INR K + 1))%R).
  { replace (vsum K (fun k => x k * x k) - 2 * c * vsum K x + INR K * (c * c))%R with (vsum K (fun k => x k * x k) - vsum K x * vsum K x / INR K)%R by (unfold c; field; lra).
    assert (vsum K x * vsum K x / (INR K + 1) <= vsum K x * vsum K x / INR K)%R; [|lra].
    apply Rmult_le_compat_l; [apply Rle_0_sqr|]. apply Rinv_le_contravar; lra. }
  nra.
Qed.

(** ** Bohning's bound on the log-sum-exp function *)
Lemma nonneg_growth (f f' : R -> R) : f 0%R = 0%R -> (forall c, (0 <= c <= 1)%R -> derivable_pt_lim f c (f' c)) ->
  (forall c, (0 <= c <= 1)%R -> (0 <= f' c)%R) -> forall u, (0 <= u <= 1)%R -> (0 <= f u)%R.
Proof.
  intros F0 Df Pf u Hu. destruct (Req_dec u 0) as [->|]; [lra|].
  destruct (MVT_cor2 f f' 0 u) as [c [E Hc]]; [lra|intros c Hc; apply Df; lra|].
  rewrite F0 in E. assert (0 <= f' c)%R by (apply Pf; lra). nra.
Qed.

Section bohning_bound.
  Variables (K : nat) (m h : vec).
  Hypothesis HK : 0 < K.
  Let Z (i : nat) (u : R) : R := vsum K (fun k => h k ^ i * exp (m k + u * h k))%R.
  Let Zpos u : (0 < Z 0 u)%R.
  Proof. apply vsum_pos; [exact HK|]. intros k _. rewrite pow_O, Rmult_1_l. apply exp_pos. Qed.
  Let Zderiv i u : derivable_pt_lim (Z i) u (Z (S i) u).
  Proof.
    apply derivable_vsum. intros k _.
    apply (derivable_as (mult_real_fct (h k ^ i) (fun u => exp (m k + u * h k)))%R _ u (h k ^ i * (exp (m k + u * h k) * (0 + (1 * h k + u * 0))))%R).
    - apply derivable_pt_lim_scal. apply (derivable_pt_lim_comp (fun u => m k + u * h k)%R exp); [|apply derivable_pt_lim_exp].
      apply (derivable_pt_lim_plus (fun _ => m k) (fun u => u * h k)%R); [apply derivable_pt_lim_const|].
      apply (derivable_pt_lim_mult (fun u => u) (fun _ => h k)); [apply derivable_pt_lim_id|apply derivable_pt_lim_const].
    - reflexivity.
    - cbn [pow]. ring.
  Qed.
  Let lnZ u : derivable_pt_lim (fun u => ln (Z 0 u)) u (Z 1 u / Z 0 u)%R.
  Proof.
    apply (derivable_as (comp ln (Z 0)) _ u (/ Z 0 u * Z 1 u)%R); [|reflexivity|unfold Rdiv; ring].
    apply derivable_pt_lim_comp; [apply Zderiv|apply derivable_pt_lim_ln; apply Zpos].
  Qed.
  Let ratio u : derivable_pt_lim (fun u => Z 1 u / Z 0 u)%R u (Z 2 u / Z 0 u - (Z 1 u / Z 0 u) * (Z 1 u / Z 0 u))%R.
  Proof.
    pose proof (Zpos u).
    apply (derivable_as (div_fct (Z 1) (Z 0)) _ u ((Z 2 u * Z 0 u - Z 1 u * Z 1 u) / Rsqr (Z 0 u))%R);
      [|reflexivity|unfold Rsqr; field; lra].
    apply derivable_pt_lim_div; [apply Zderiv|apply Zderiv|lra].
  Qed.
  Let curvature u : (Z 2 u / Z 0 u - (Z 1 u / Z 0 u) * (Z 1 u / Z 0 u) <= quad K (bohning K) h h)%R.
  Proof.
    pose proof (Zpos u) as P.
    pose proof (variance_bohning K (fun k => exp (m k + u * h k) / Z 0 u)%R h HK) as V. cbv beta in V.
    assert (E : forall i, vsum K (fun k => exp (m k + u * h k) / Z 0 u * h k ^ i)%R = (Z i u / Z 0 u)%R).
    { intros i. unfold Z, Rdiv. rewrite <- vsum_scale_r. apply vsum_ext. intros. ring. }
    rewrite (vsum_ext K (fun k => exp (m k + u * h k) / Z 0 u * (h k * h k))%R (fun k => exp (m k + u * h k) / Z 0 u * h k ^ 2)%R) in V by (intros; ring).
    rewrite (vsum_ext K (fun k => exp (m k + u * h k) / Z 0 u * h k)%R (fun k => exp (m k + u * h k) / Z 0 u * h k ^ 1)%R) in V by (intros; ring).
    rewrite !E in V. apply V.
    - intros k _. left. apply Rdiv_lt_0_compat; [apply exp_pos|exact P].
    - rewrite (vsum_ext K _ (fun k => exp (m k + u * h k) / Z 0 u * h k ^ 0)%R) by (intros; cbn [pow]; ring).
      rewrite E. field. lra.
  Qed.
  Let slope u : (0 <= u <= 1)%R -> (0 <= quad K (bohning K) h h * u - (Z 1 u / Z 0 u - Z 1 0 / Z 0 0))%R.
  Proof.
    set (q := quad K (bohning K) h h).
    apply (nonneg_growth (fun u => q * u - (Z 1 u / Z 0 u - Z 1 0 / Z 0 0))%R
             (fun u => q - (Z 2 u / Z 0 u - (Z 1 u / Z 0 u) * (Z 1 u / Z 0 u)))%R).
    - ring.
    - intros c _. pose proof (ratio c) as D.
      pose proof (derivable_pt_lim_minus _ _ _ _ _ (derivable_pt_lim_scal _ q _ _ (derivable_pt_lim_id c))
                    (derivable_pt_lim_minus _ _ _ _ _ D (derivable_pt_lim_const (Z 1 0 / Z 0 0)%R c))) as H.
      apply (derivable_as _ _ _ _ _ H).
      + intros y. unfold minus_fct, mult_real_fct, id, fct_cte. ring.
      + ring.
    - intros c _. pose proof (curvature c). fold q in H. lra.
  Qed.
  Lemma bohning_lse :
    (ln (vsum K (fun k => exp (m k + h k))) - ln (vsum K (fun k => exp (m k)))
     <= vsum K (fun k => softmax K m k * h k) + quad K (bohning K) h h / 2)%R.
  Proof.
    set (q := quad K (bohning K) h h).
    pose proof (nonneg_growth (fun u => q * (u * u) / 2 + Z 1 0 / Z 0 0 * u - (ln (Z 0 u) - ln (Z 0 0)))%R
             (fun u => q * u - (Z 1 u / Z 0 u - Z 1 0 / Z 0 0))%R) as G.
    assert (E0 : vsum K (fun k => exp (m k)) = Z 0 0).
    { apply vsum_ext. intros k _. rewrite Rmult_0_l, Rplus_0_r. cbn [pow]. ring. }
    assert (E1 : vsum K (fun k => exp (m k + h k)) = Z 0 1).
    { apply vsum_ext. intros k _. rewrite (Rmult_1_l (h k)). cbn [pow]. ring. }
    assert (Es : vsum K (fun k => softmax K m k * h k)%R = (Z 1 0 / Z 0 0)%R).
    { unfold softmax. rewrite E0. set (z := Z 0 0). unfold Z, Rdiv. rewrite <- vsum_scale_r. apply vsum_ext. intros k _.
      rewrite Rmult_0_l, Rplus_0_r. cbn [pow]. ring. }
    rewrite E0, E1, Es. 
    assert (0 <= q * (1 * 1) / 2 + Z 1 0 / Z 0 0 * 1 - (ln (Z 0 1) - ln (Z 0 0)))%R; [|lra].
    apply G; [|intros c _|exact slope|lra].
    - unfold Rdiv. ring.
    - pose proof (derivable_pt_lim_minus _ _ _ _ _
                   (derivable_pt_lim_plus _ _ _ _ _
                     (derivable_pt_lim_scal _ (q / 2) _ _ (derivable_pt_lim_mult _ _ _ _ _ (derivable_pt_lim_id c) (derivable_pt_lim_id c)))
                     (derivable_pt_lim_scal _ (Z 1 0 / Z 0 0) _ _ (derivable_pt_lim_id c)))
                   (derivable_pt_lim_minus _ _ _ _ _ (lnZ c) (derivable_pt_lim_const (ln (Z 0 0)) c))) as H.
      apply (derivable_as _ _ _ _ _ H).
      + intros y. unfold plus_fct, minus_fct, mult_fct, mult_real_fct, id, fct_cte. field. pose proof (Zpos 0). lra.
      + unfold id. field. pose proof (Zpos 0). pose proof (Zpos c). lra.
  Qed.
End bohning_bound.

(** ** Quadratic forms *)
Lemma quad_ext K P Q x y x' y' : (forall i j, i < K -> j < K -> P i j = Q i j) ->
  (forall i, i < K -> x i = x' i) -> (forall i, i < K -> y i = y' i) -> quad K P x y = quad K Q x' y'.
Proof.
  intros HP Hx Hy. apply vsum_ext. intros i Hi. apply vsum_ext. intros j Hj. rewrite HP, Hx, Hy by assumption. reflexivity.
Qed.
Lemma quad_add_l K P x y z : quad K P (fun i => x i + y i)%R z = (quad K P x z + quad K P y z)%R.
Proof.
  unfold quad. rewrite <- vsum_plus. apply vsum_ext. intros i _. rewrite <- vsum_plus. apply vsum_ext. intros. ring.
Qed.
Lemma quad_add_r K P x y z : quad K P z (fun i => x i + y i)%R = (quad K P z x + quad K P z y)%R.
Proof.
  unfold quad. rewrite <- vsum_plus. apply vsum_ext. intros i _. rewrite <- vsum_plus. apply vsum_ext. intros. ring.
Qed.
Lemma quad_sub_r K P x y z : quad K P z (fun i => x i - y i)%R = (quad K P z x - quad K P z y)%R.
Proof.
  unfold quad. rewrite <- vsum_minus. apply vsum_ext. intros i _. rewrite <- vsum_minus. apply vsum_ext. intros. ring.
Qed.
Lemma quad_sym K P x y : symm K P -> quad K P x y = quad K P y x.
Proof.
  intros HP. unfold quad. rewrite (vsum_swap K K (fun i j => x i * P i j * y j)%R). apply vsum_ext. intros j Hj. apply vsum_ext. intros i Hi.
  rewrite (HP i j) by assumption. ring.
Qed.
Lemma quad_mat K P x y : quad K P x y = vsum K (fun i => x i * vsum K (fun j => P i j * y j))%R.
Proof. apply vsum_ext. intros i _. rewrite <- vsum_scale. apply vsum_ext. intros. ring. Qed.
Lemma quad_add_mat K P Q c x y : quad K (fun i j => P i j + c * Q i j)%R x y = (quad K P x y + c * quad K Q x y)%R.
Proof.
  unfold quad. rewrite <- vsum_scale, <- vsum_plus. apply vsum_ext. intros i _. rewrite <- vsum_scale, <- vsum_plus.
  apply vsum_ext. intros. ring.
Qed.
Lemma quad_square K P x h : symm K P ->
  quad K P (fun i => x i + h i)%R (fun i => x i + h i)%R = (quad K P x x + 2 * quad K P h x + quad K P h h)%R.
Proof. intros HP. rewrite quad_add_l, !quad_add_r, (quad_sym K P x h HP). ring. Qed.
Lemma bohning_symm K : symm K (bohning K).
Proof. intros i j _ _. unfold bohning, eye. rewrite (Nat.eqb_sym i j). reflexivity. Qed.
Lemma bohning_psd K : 0 < K -> psd K (bohning K).
Proof.
  intros HK x.
  pose proof (variance_bohning K (fun _ => / INR K)%R x HK) as V. cbv beta in V.
  assert (HN : (0 < INR K)%R) by (apply lt_0_INR; exact HK).
  refine (Rle_trans _ _ _ _ (V _ _)).
  - rewrite !vsum_scale.
    pose proof (shift_square K x (vsum K x / INR K)) as E.
    assert (0 <= vsum K (fun k => (x k - vsum K x / INR K) * (x k - vsum K x / INR K)))%R by (apply vsum_nonneg; intros; apply Rle_0_sqr).
    rewrite E in H.
    replace (vsum K (fun k => x k * x k) - 2 * (vsum K x / INR K) * vsum K x + INR K * (vsum K x / INR K * (vsum K x / INR K)))%R
      with (INR K * (/ INR K * vsum K (fun k => x k * x k) - / INR K * vsum K x * (/ INR K * vsum K x)))%R in H by (field; lra).
    apply (Rmult_le_reg_l (INR K)); [exact HN|]. lra.
  - intros. left. apply Rinv_0_lt_compat. exact HN.
  - rewrite vsum_const. field. lra.
Qed.

(** ** One document *)
Section document.
  Variables (K T : nat) (v : mat) (w mu m : vec) (P : mat).
  Hypothesis HK : 0 < K.
  Hypothesis Hv : covers K T v.
  Hypothesis Hw : forall t, t < T -> (0 <= w t)%R.

  (** The probability of a word before normalisation, and the expected number of words of
      each topic. *)
  Definition mass (m : vec) (t : nat) : R := vsum K (fun k => exp (m k) * v k t)%R.
  Definition expected (m : vec) (k : nat) : R := vsum T (fun t => w t * (exp (m k) * v k t / mass m t))%R.

  Lemma weighted_pos (a : vec) t : (forall k, k < K -> (0 < a k)%R) -> t < T -> (0 < vsum K (fun k => a k * v k t))%R.
  Proof.
    intros Ha Ht. destruct Hv as [H0 H1]. destruct (H1 t Ht) as [k [Hk Hp]].
    apply (vsum_pos_one K _ k Hk); [|apply Rmult_lt_0_compat; [apply Ha; exact Hk|exact Hp]].
    intros j Hj. apply Rmult_le_pos; [left; apply Ha; exact Hj|apply H0; assumption].
  Qed.
  Lemma mass_pos x t : t < T -> (0 < mass x t)%R.
  Proof. intros Ht. apply weighted_pos; [|exact Ht]. intros; apply exp_pos. Qed.
  Lemma like_split x : log_like K T v w x =
    (vsum T (fun t => w t * ln (mass x t)) - vsum T w * ln (vsum K (fun k => exp (x k))))%R.
  Proof.
    unfold log_like. rewrite <- vsum_scale_r, <- vsum_minus. apply vsum_ext. intros t Ht.
    rewrite (vsum_ext K _ (fun k => exp (x k) * v k t * / vsum K (fun j => exp (x j)))%R) by (intros; unfold softmax, Rdiv; ring).
    rewrite vsum_scale_r. fold (mass x t). pose proof (exps_pos K HK x). pose proof (mass_pos x t Ht).
    rewrite ln_mult, ln_Rinv by (try apply Rinv_0_lt_compat; assumption). ring.
  Qed.
  Lemma expected_gain (h : vec) :
    (vsum K (fun k => expected m k * h k) <= vsum T (fun t => w t * (ln (mass (fun k => m k + h k) t) - ln (mass m t))))%R.
  Proof.
    replace (vsum K (fun k => expected m k * h k)%R)
      with (vsum T (fun t => w t * vsum K (fun k => exp (m k) * v k t / mass m t * h k)))%R.
    - apply vsum_le. intros t Ht. apply Rmult_le_compat_l; [apply Hw; exact Ht|].
      pose proof (jensen_ratio K (fun k => exp (m k) * v k t)%R h) as J. cbv beta in J. fold (mass m t) in J.
      refine (Rle_trans _ _ _ (J _ (mass_pos m t Ht)) _).
      + intros k Hk. apply Rmult_le_pos; [left; apply exp_pos|apply Hv; assumption].
      + right. do 2 f_equal. apply vsum_ext. intros k _. rewrite exp_plus. ring.
    - unfold expected.
      rewrite (vsum_ext K _ (fun k => vsum T (fun t => w t * (exp (m k) * v k t / mass m t) * h k)))%R
        by (intros; rewrite vsum_scale_r; reflexivity).
      rewrite (vsum_swap K T (fun k t => w t * (exp (m k) * v k t / mass m t) * h k)%R). apply vsum_ext. intros t _.
      rewrite <- vsum_scale. apply vsum_ext. intros. ring.
  Qed.
  Lemma expected_sum : vsum K (expected m) = vsum T w.
  Proof.
    unfold expected. rewrite (vsum_swap K T (fun k t => w t * (exp (m k) * v k t / mass m t))%R). apply vsum_ext. intros t Ht.
    rewrite vsum_scale. unfold Rdiv. rewrite vsum_scale_r. fold (mass m t). rewrite Rinv_r by (apply Rgt_not_eq, mass_pos; exact Ht). ring.
  Qed.

  Hypothesis HP : symm K P.
  (** The system of equations that the new means solve. *)
  Definition solves (m' : vec) : Prop := forall k, k < K ->
    (vsum K (fun j => (P k j + vsum T w * bohning K k j) * m' j)
     = expected m k + vsum T w * vsum K (fun j => m j * bohning K j k) + vsum K (fun j => P k j * mu j) - vsum T w * softmax K m k)%R.

  Lemma posterior_gain m' : solves m' ->
    (log_posterior K T v mu P w m + quad K (fun i j => P i j + vsum T w * bohning K i j) (fun k => m' k - m k) (fun k => m' k - m k) / 2
     <= log_posterior K T v mu P w m')%R.
  Proof.
    intros HS. unfold solves in HS. set (N := vsum T w) in *.
    set (h := fun k => (m' k - m k)%R).
    assert (HN : (0 <= N)%R) by (apply vsum_nonneg; exact Hw).
    (* the equations, multiplied by h *)
    assert (E : (quad K P h m' + N * quad K (bohning K) h m'
                 = vsum K (fun k => expected m k * h k) + N * quad K (bohning K) h m + quad K P h mu - N * vsum K (fun k => softmax K m k * h k))%R).
    { rewrite <- quad_add_mat, (quad_mat K (fun i j => P i j + N * bohning K i j)%R).
      rewrite (vsum_ext K _ (fun k => expected m k * h k + N * (h k * vsum K (fun j => bohning K k j * m j)) + h k * vsum K (fun j => P k j * mu j) - N * (softmax K m k * h k))%R).
      - rewrite vsum_minus, !vsum_plus, !vsum_scale, <- !quad_mat. reflexivity.
      - intros k Hk. rewrite (HS k Hk).
        rewrite (vsum_ext K (fun j => m j * bohning K j k)%R (fun j => bohning K k j * m j)%R) by (intros j Hj; rewrite (bohning_symm K j k Hj Hk); ring).
        ring. }
    rewrite (quad_ext K P P h m' h (fun k => m k + h k)%R) in E; [|reflexivity|reflexivity|intros; unfold h; ring].
    rewrite (quad_ext K (bohning K) (bohning K) h m' h (fun k => m k + h k)%R) in E; [|reflexivity|reflexivity|intros; unfold h; ring].
    rewrite !quad_add_r in E. rewrite quad_add_mat.
    unfold log_posterior. rewrite !like_split. fold N.
    rewrite (quad_ext K P P (fun k => m' k - mu k)%R (fun k => m' k - mu k)%R (fun k => (m k - mu k) + h k)%R (fun k => (m k - mu k) + h k)%R);
      [|reflexivity|intros; unfold h; ring|intros; unfold h; ring].
    rewrite (quad_square K P (fun k => m k - mu k)%R h HP). rewrite (quad_sub_r K P m mu h).
    pose proof (expected_gain h) as G. rewrite (vsum_ext T _ (fun t => w t * ln (mass (fun k => m k + h k) t) - w t * ln (mass m t))%R) in G by (intros; ring).
    rewrite vsum_minus in G.
    assert (EM : forall t, mass (fun k => m k + h k)%R t = mass m' t).
    { intros t. apply vsum_ext. intros k _. f_equal. f_equal. unfold h. ring. }
    rewrite (vsum_ext T (fun t => w t * ln (mass (fun k => m k + h k) t))%R (fun t => w t * ln (mass m' t))%R) in G by (intros; rewrite EM; reflexivity).
    pose proof (bohning_lse K m h HK) as B.
    rewrite (vsum_ext K (fun k => exp (m k + h k)) (fun k => exp (m' k))) in B by (intros; f_equal; unfold h; ring).
    pose proof (Rmult_le_compat_l N _ _ HN B) as B'. nra.
  Qed.
  Lemma posterior_grows m' : psd K P -> solves m' -> (log_posterior K T v mu P w m <= log_posterior K T v mu P w m')%R.
  Proof.
    intros HPP HS. pose proof (posterior_gain m' HS) as G. rewrite quad_add_mat in G.
    pose proof (HPP (fun k => m' k - m k)%R). pose proof (bohning_psd K HK (fun k => m' k - m k)%R).
    assert (0 <= vsum T w)%R by (apply vsum_nonneg; exact Hw).
    pose proof (Rmult_le_pos _ _ H1 H0). lra.
  Qed.
End document.

(** ** The matrices of the model *)
Section model.
  Variables (K D T : nat) (W : mat).
  Hypothesis HK : 0 < K.
  Hypothesis HW : forall d t, d < D -> t < T -> (0 <= W d t)%R.

  Lemma exp_means_scaled M d k : exp_means K M d k = (exp (M d k) * exp (- vmax K (M d)))%R.
  Proof. unfold exp_means. rewrite <- exp_plus. reflexivity. Qed.
  Lemma share M v d k t : covers K T v -> t < T ->
    (quotient K W (exp_means K M) v d t * exp_means K M d k = W d t * (exp (M d k) / mass K v (M d) t))%R.
  Proof.
    intros Hv Ht. unfold quotient.
    rewrite (vsum_ext K _ (fun j => exp (M d j) * v j t * exp (- vmax K (M d)))%R) by (intros; rewrite exp_means_scaled; ring).
    rewrite vsum_scale_r. fold (mass K v (M d) t). rewrite exp_means_scaled.
    pose proof (mass_pos K T v Hv (M d) t Ht). pose proof (exp_pos (- vmax K (M d))). field. lra.
  Qed.
  Lemma token_weights_expected M v d k : covers K T v ->
    token_weights K T W (exp_means K M) v d k = expected K T v (W d) (M d) k.
  Proof.
    intros Hv. unfold token_weights, expected. rewrite <- vsum_scale. apply vsum_ext. intros t Ht.
    replace (exp_means K M d k * (quotient K W (exp_means K M) v d t * v k t))%R
      with (quotient K W (exp_means K M) v d t * exp_means K M d k * v k t)%R by ring.
    rewrite share by assumption. unfold Rdiv. ring.
  Qed.
  Lemma vocab_counts_is M v k t : covers K T v -> t < T ->
    vocab_counts K D W (exp_means K M) v k t = vsum D (fun d => W d t * (exp (M d k) * v k t / mass K v (M d) t))%R.
  Proof.
    intros Hv Ht. unfold vocab_counts. rewrite <- vsum_scale. apply vsum_ext. intros d _. rewrite share by assumption.
    unfold Rdiv. ring.
  Qed.

  Lemma quotient_nonneg e v d t : (forall k, k < K -> (0 < e d k)%R) -> covers K T v -> d < D -> t < T ->
    (0 <= quotient K W e v d t)%R.
  Proof.
    intros He Hv Hd Ht. apply Rmult_le_pos; [apply HW; assumption|]. left. apply Rinv_0_lt_compat.
    apply (weighted_pos K T v Hv (e d) t He Ht).
  Qed.
  Lemma vocab_counts_nonneg e v k t : (forall d k, d < D -> k < K -> (0 < e d k)%R) -> covers K T v -> k < K -> t < T ->
    (0 <= vocab_counts K D W e v k t)%R.
  Proof.
    intros He Hv Hk Ht. apply Rmult_le_pos; [apply Hv; assumption|]. apply vsum_nonneg. intros d Hd.
    apply Rmult_le_pos; [apply quotient_nonneg; try assumption; intros; apply He; assumption|left; apply He; assumption].
  Qed.

  Section vocab.
    Variable beta : R.
    Hypothesis Hb : (0 < beta)%R.
    Lemma vocab_total e v k : (forall d k, d < D -> k < K -> (0 < e d k)%R) -> covers K T v -> 0 < T -> k < K ->
      (0 < vsum T (fun t => vocab_counts K D W e v k t + beta))%R.
    Proof.
      intros He Hv HT Hk. apply vsum_pos; [exact HT|]. intros t Ht. pose proof (vocab_counts_nonneg e v k t He Hv Hk Ht). lra.
    Qed.
    Lemma vocab_update_pos e v k t : (forall d k, d < D -> k < K -> (0 < e d k)%R) -> covers K T v -> k < K -> t < T ->
      (0 < vocab_update K D T W beta e v k t)%R.
    Proof.
      intros He Hv Hk Ht. unfold vocab_update, norm_rows. apply Rdiv_lt_0_compat; [|apply vocab_total; try assumption; lia].
      pose proof (vocab_counts_nonneg e v k t He Hv Hk Ht). lra.
    Qed.
    Lemma vocab_update_sum e v k : (forall d k, d < D -> k < K -> (0 < e d k)%R) -> covers K T v -> 0 < T -> k < K ->
      vsum T (vocab_update K D T W beta e v k) = 1%R.
    Proof.
      intros He Hv HT Hk. unfold vocab_update, norm_rows, Rdiv. rewrite vsum_scale_r. apply Rinv_r.
      apply Rgt_not_eq. apply vocab_total; assumption.
    Qed.
  End vocab.

  (** The vocabulary step of expectation maximisation. *)
  Lemma gibbs_ineq (p q : vec) : (forall t, t < T -> (0 < p t)%R) -> (forall t, t < T -> (0 < q t)%R) ->
    vsum T p = 1%R -> vsum T q = 1%R -> (0 <= vsum T (fun t => p t * (ln (p t) - ln (q t))))%R.
  Proof.
    intros Hp Hq P1 Q1. pose proof (jensen T p (fun t => ln (q t) - ln (p t))%R) as J. cbv beta in J.
    rewrite (vsum_ext T (fun k => p k * exp (ln (q k) - ln (p k)))%R q) in J.
    - rewrite Q1, ln_1 in J.
      rewrite (vsum_ext T _ (fun t => - (p t * (ln (q t) - ln (p t))))%R) by (intros; ring). rewrite vsum_opp.
      specialize (J (fun t Ht => Rlt_le _ _ (Hp t Ht)) P1). lra.
    - intros t Ht. unfold Rminus. rewrite exp_plus, exp_Ropp, !exp_ln by (first [apply Hp|apply Hq]; exact Ht).
      pose proof (Hp t Ht). field. lra.
  Qed.
  Lemma vocab_step M v beta : (0 < beta)%R -> 0 < T ->
    (forall k t, k < K -> t < T -> (0 < v k t)%R) -> (forall k, k < K -> vsum T (v k) = 1%R) ->
    let v' := vocab_update K D T W beta (exp_means K M) v in
    (vsum D (fun d => log_like K T v (W d) (M d)) + beta * vsum K (fun k => vsum T (fun t => ln (v k t)))
     <= vsum D (fun d => log_like K T v' (W d) (M d)) + beta * vsum K (fun k => vsum T (fun t => ln (v' k t))))%R.
  Proof.
    intros Hb HT Hv V1 v'.
    assert (Hcov : covers K T v).
    { split; [intros; left; apply Hv; assumption|]. intros t Ht. exists 0. split; [exact HK|apply Hv; assumption]. }
    assert (He : forall d k, d < D -> k < K -> (0 < exp_means K M d k)%R) by (intros; apply exp_pos).
    assert (Hv' : forall k t, k < K -> t < T -> (0 < v' k t)%R) by (intros; apply vocab_update_pos; assumption).
    assert (V1' : forall k, k < K -> vsum T (v' k) = 1%R) by (intros; apply vocab_update_sum; assumption).
    assert (Hcov' : covers K T v').
    { split; [intros; left; apply Hv'; assumption|]. intros t Ht. exists 0. split; [exact HK|apply Hv'; assumption]. }
    set (C := vocab_counts K D W (exp_means K M) v).
    set (x := fun k t => (ln (v' k t) - ln (v k t))%R).
    (* the gain of the likelihood *)
    assert (A : (vsum K (fun k => vsum T (fun t => C k t * x k t))
       <= vsum D (fun d => log_like K T v' (W d) (M d)) - vsum D (fun d => log_like K T v (W d) (M d)))%R).
    { rewrite <- vsum_minus.
      replace (vsum K (fun k => vsum T (fun t => C k t * x k t))%R)
        with (vsum D (fun d => vsum T (fun t => W d t * vsum K (fun k => exp (M d k) * v k t / mass K v (M d) t * x k t)))%R).
      - apply vsum_le. intros d Hd.
        rewrite (like_split K T v' (W d) HK Hcov'), (like_split K T v (W d) HK Hcov).
        replace (vsum T (fun t => W d t * ln (mass K v' (M d) t)) - vsum T (W d) * ln (vsum K (fun k => exp (M d k))) -
                 (vsum T (fun t => W d t * ln (mass K v (M d) t)) - vsum T (W d) * ln (vsum K (fun k => exp (M d k)))))%R
          with (vsum T (fun t => W d t * ln (mass K v' (M d) t) - W d t * ln (mass K v (M d) t)))%R by (rewrite vsum_minus; ring).
        apply vsum_le. intros t Ht. rewrite <- Rmult_minus_distr_l. apply Rmult_le_compat_l; [apply HW; assumption|].
        pose proof (jensen_ratio K (fun k => exp (M d k) * v k t)%R (fun k => x k t)) as J. cbv beta in J.
        fold (mass K v (M d) t) in J.
        refine (Rle_trans _ _ _ (J _ (mass_pos K T v Hcov (M d) t Ht)) _).
        + intros k Hk. apply Rmult_le_pos; [left; apply exp_pos|left; apply Hv; assumption].
        + right. do 2 f_equal. apply vsum_ext. intros k Hk. unfold x, Rminus. rewrite exp_plus, exp_Ropp, !exp_ln by (first [apply Hv|apply Hv']; assumption).
          pose proof (Hv k t Hk Ht). field. lra.
      - rewrite (vsum_swap K T (fun k t => C k t * x k t)%R).
        rewrite (vsum_swap D T (fun d t => W d t * vsum K (fun k => exp (M d k) * v k t / mass K v (M d) t * x k t))%R).
        apply vsum_ext. intros t Ht.
        rewrite (vsum_ext K (fun k => C k t * x k t)%R (fun k => vsum D (fun d => W d t * (exp (M d k) * v k t / mass K v (M d) t) * x k t))%R)
          by (intros k Hk; unfold C; rewrite vocab_counts_is, vsum_scale_r by assumption; reflexivity).
        rewrite (vsum_swap K D (fun k d => W d t * (exp (M d k) * v k t / mass K v (M d) t) * x k t)%R).
        apply vsum_ext. intros d _. rewrite <- vsum_scale. apply vsum_ext. intros. ring. }
    (* the gain against the prior *)
    assert (B : (0 <= vsum K (fun k => vsum T (fun t => (C k t + beta) * x k t)))%R).
    { apply vsum_nonneg. intros k Hk.
      pose proof (vocab_total beta Hb (exp_means K M) v k He Hcov HT Hk) as S0. fold C in S0.
      rewrite (vsum_ext T _ (fun t => vsum T (fun t => C k t + beta) * (v' k t * x k t))%R).
      - rewrite vsum_scale. apply Rmult_le_pos; [lra|]. apply gibbs_ineq; auto.
      - intros t _. unfold v', vocab_update, norm_rows. fold C. field. lra. }
    rewrite (vsum_ext K _ (fun k => vsum T (fun t => C k t * x k t) + beta * (vsum T (fun t => ln (v' k t)) - vsum T (fun t => ln (v k t))))%R) in B.
    - rewrite vsum_plus, vsum_scale, vsum_minus in B. lra.
    - intros k _. rewrite <- vsum_minus, <- vsum_scale, <- vsum_plus. apply vsum_ext. intros. unfold x. ring.
  Qed.

  (** The new means solve the equations. *)
  Lemma new_means_solve n inv isigT prior mu M v d : covers K T v -> d < D -> n d = vsum T (W d) ->
    is_inverse K (lhs K n isigT d) (inv (lhs K n isigT d)) ->
    (forall k, k < K -> prior d k = vsum K (fun j => isigT k j * mu j)%R) ->
    solves K T v (W d) mu (M d) isigT
      (new_means K n inv isigT (rhs K n prior (token_weights K T W (exp_means K M) v) M) d).
  Proof.
    intros Hv Hd Hn HI Hp k Hk. unfold new_means. set (r := rhs K n prior (token_weights K T W (exp_means K M) v) M d).
    rewrite (vsum_ext K _ (fun j => vsum K (fun l => lhs K n isigT d k j * inv (lhs K n isigT d) j l * r l))%R).
    2:{ intros j _. unfold lhs at 1. rewrite <- Hn, <- vsum_scale. apply vsum_ext. intros. unfold lhs. ring. }
    rewrite (vsum_swap K K (fun j l => lhs K n isigT d k j * inv (lhs K n isigT d) j l * r l)%R).
    rewrite (vsum_ext K _ (fun l => eye k l * r l)%R).
    2:{ intros l Hl. rewrite vsum_scale_r, (HI k l Hk Hl). reflexivity. }
    rewrite vsum_eye by exact Hk. unfold r, rhs. rewrite token_weights_expected by exact Hv.
    rewrite vsoftmax_is by exact HK. rewrite Hp by exact Hk. rewrite Hn. ring.
  Qed.
End model.
