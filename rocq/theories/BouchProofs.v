(** * Bouchard's bound on the normaliser of the softmax, and the steps that maximise it. *)
From Coq Require Import List Reals ZArith Arith Bool Lra Lia.
From Verif Require Import Base RealModel RealProofs VbModel VbProofs LinkModel LinkProps CtmModel CtmProofs CtmProps
  StmProofs StmProps MtmModel MtmProofs MtmProps BouchModel.
Import ListNotations.
Open Scope nat_scope.

(** ** Specification *)
(** The coefficient of Jaakkola and Jordan, Bouchard's bound at the point [x] with offset
    [s] and tangents at [xi], and the variational objective of a document with word counts
    [w]: the expectation of the bounded log-posterior for normals with means [m] and
    variances [u], and their entropy, up to constants. *)
Definition jaakkola (x : R) : R := ((1 / (1 + exp (- x)) - 1 / 2) / (2 * x))%R.
Definition bouchard (K : nat) (s : R) (xi x : vec) : R :=
  (s + vsum K (fun k => (x k - s - xi k) / 2 + jaakkola (xi k) * ((x k - s) * (x k - s) - xi k * xi k) + ln (1 + exp (xi k))))%R.
Definition objective (K T : nat) (v : mat) (mu : vec) (P : mat) (w : vec) (s : R) (xi m u : vec) : R :=
  (vsum T (fun t => w t * ln (vsum K (fun k => exp (m k) * v k t)))
   - vsum T w * (bouchard K s xi m + vsum K (fun k => jaakkola (xi k) * u k))
   - quad K P (fun k => m k - mu k) (fun k => m k - mu k) / 2
   - vsum K (fun k => P k k * u k) / 2 + vsum K (fun k => ln (u k)) / 2)%R.

(** ** Calculus *)
Lemma mono_deriv (f f' : R -> R) a b : (a <= b)%R -> (forall c, (a <= c <= b)%R -> derivable_pt_lim f c (f' c)) ->
  (forall c, (a <= c <= b)%R -> (0 <= f' c)%R) -> (f a <= f b)%R.
Proof.
  intros Hab Hd Hp. destruct (Req_dec a b) as [->|Hne]; [lra|].
  destruct (MVT_cor2 f f' a b ltac:(lra) Hd) as [c [E Hc]].
  pose proof (Hp c ltac:(lra)). nra.
Qed.
Lemma mono_deriv_strict (f f' : R -> R) a b : (a < b)%R -> (forall c, (a <= c <= b)%R -> derivable_pt_lim f c (f' c)) ->
  (forall c, (a < c < b)%R -> (0 < f' c)%R) -> (f a < f b)%R.
Proof.
  intros Hab Hd Hp. destruct (MVT_cor2 f f' a b Hab Hd) as [c [E Hc]].
  pose proof (Hp c Hc). nra.
Qed.
Lemma deriv_ext f g x l l' : (forall y, f y = g y) -> l = l' -> derivable_pt_lim f x l -> derivable_pt_lim g x l'.
Proof.
  intros E <- H eps He. destruct (H eps He) as [d Hd]. exists d. intros h Hh0 Hh. rewrite <- !E. apply Hd; assumption.
Qed.
Lemma deriv_exp_opp x : derivable_pt_lim (fun t => exp (- t))%R x (- exp (- x))%R.
Proof.
  apply (deriv_ext (comp exp (fun t => - t))%R _ x (exp (- x) * - (1))%R); [reflexivity|ring|].
  apply derivable_pt_lim_comp; [|apply derivable_pt_lim_exp].
  apply (deriv_ext (opp_fct id) _ x (- (1))%R); [reflexivity|reflexivity|]. apply derivable_pt_lim_opp, derivable_pt_lim_id.
Qed.

(** 2 t < e^t - e^-t. *)
Lemma sinh_above t : (0 < t)%R -> (2 * t < exp t - exp (- t))%R.
Proof.
  intros Ht. set (f := fun x => (exp x - exp (- x) - 2 * x)%R).
  assert (H : (f 0 < f t)%R); [|unfold f in H; rewrite Ropp_0, exp_0 in H; lra].
  apply (mono_deriv_strict f (fun x => exp x + exp (- x) - 2)%R); [exact Ht| |].
  - intros c _. unfold f.
    apply (deriv_ext (minus_fct (minus_fct exp (fun x => exp (- x))) (mult_real_fct 2 id))%R _ c (exp c - - exp (- c) - 2 * 1)%R); [reflexivity|ring|].
    apply derivable_pt_lim_minus; [apply derivable_pt_lim_minus; [apply derivable_pt_lim_exp|apply deriv_exp_opp]|].
    apply derivable_pt_lim_scal, derivable_pt_lim_id.
  - intros c Hc. pose proof (exp_pos c). assert (E : (exp c * exp (- c) = 1)%R) by (rewrite <- exp_plus; replace (c + - c)%R with 0%R by ring; apply exp_0).
    assert (exp c > 1)%R by (pose proof (exp_ineq1 c ltac:(lra)); lra).
    pose proof (exp_pos (- c)). assert (exp (- c) <> exp c) by nra. nra.
Qed.

(** The coefficient as a quotient of exponentials. *)
Lemma jaakkola_is x : x <> 0%R -> jaakkola x = ((exp x - 1) / (4 * x * (exp x + 1)))%R.
Proof.
  intros Hx. unfold jaakkola. rewrite exp_Ropp. pose proof (exp_pos x). field. split; [lra|]. split; lra.
Qed.
Lemma neg_jakkola_is x : x <> 0%R -> neg_jakkola x = jaakkola x.
Proof. intros Hx. unfold neg_jakkola, jaakkola. pose proof (exp_pos (- x)). field. split; [lra|lra]. Qed.

Lemma jaakkola_pos x : (0 < x)%R -> (0 < jaakkola x)%R.
Proof.
  intros Hx. rewrite jaakkola_is by lra. pose proof (exp_ineq1 x ltac:(lra)).
  apply Rdiv_lt_0_compat; [lra|]. apply Rmult_lt_0_compat; lra.
Qed.
Lemma jaakkola_below x : (0 < x)%R -> (jaakkola x < 1 / 8)%R.
Proof.
  intros Hx. rewrite jaakkola_is by lra. pose proof (exp_pos x).
  set (f := fun t => (t * (exp t + 1) - 2 * (exp t - 1))%R).
  assert (H0 : (f 0 < f x)%R).
  { apply (mono_deriv_strict f (fun t => 1 + (t - 1) * exp t)%R); [exact Hx| |].
    - intros c _. unfold f.
      apply (deriv_ext (minus_fct (mult_fct id (plus_fct exp (fct_cte 1))) (mult_real_fct 2 (minus_fct exp (fct_cte 1))))%R _ c
              ((1 * (exp c + 1) + c * (exp c + 0)) - 2 * (exp c - 0))%R); [reflexivity|ring|].
      apply derivable_pt_lim_minus.
      + apply (derivable_pt_lim_mult id (exp + fct_cte 1)%F c 1%R (exp c + 0)%R); [apply derivable_pt_lim_id|].
        apply derivable_pt_lim_plus; [apply derivable_pt_lim_exp|apply derivable_pt_lim_const].
      + apply derivable_pt_lim_scal. apply derivable_pt_lim_minus; [apply derivable_pt_lim_exp|apply derivable_pt_lim_const].
    - intros c Hc. pose proof (exp_ineq1 (- c) ltac:(lra)). pose proof (exp_pos c).
      assert (E : (exp c * exp (- c) = 1)%R) by (rewrite <- exp_plus; replace (c + - c)%R with 0%R by ring; apply exp_0). nra. }
  unfold f in H0. rewrite exp_0 in H0.
  apply (Rmult_lt_reg_r (4 * x * (exp x + 1))); [apply Rmult_lt_0_compat; lra|].
  unfold Rdiv at 1. rewrite Rmult_assoc, Rinv_l by (apply Rgt_not_eq; apply Rmult_lt_0_compat; lra). nra.
Qed.
(** It decreases. *)
Lemma jaakkola_decr a b : (0 < a)%R -> (a < b)%R -> (jaakkola b < jaakkola a)%R.
Proof.
  intros Ha Hab. rewrite !jaakkola_is by lra.
  set (f := fun t => (- ((exp t - 1) / (4 * t * (exp t + 1))))%R).
  assert (H : (f a < f b)%R); [|unfold f in H; lra].
  apply (mono_deriv_strict f (fun t => (exp t * exp t - 1 - 2 * t * exp t) / (4 * (t * t) * ((exp t + 1) * (exp t + 1))))%R); [exact Hab| |].
  - intros c Hc. pose proof (exp_pos c) as Hp.
    apply (deriv_ext (opp_fct (div_fct (minus_fct exp (fct_cte 1)) (mult_fct (mult_real_fct 4 id) (plus_fct exp (fct_cte 1)))))%R _ c
            (- (((exp c - 0) * ((4 * c) * (exp c + 1)) - ((4 * 1) * (exp c + 1) + (4 * c) * (exp c + 0)) * (exp c - 1)) / Rsqr (4 * c * (exp c + 1))))%R).
    + reflexivity.
    + unfold Rsqr. field. split; lra.
    + apply derivable_pt_lim_opp.
      apply (derivable_pt_lim_div (minus_fct exp (fct_cte 1)) (mult_fct (mult_real_fct 4 id) (plus_fct exp (fct_cte 1))) c (exp c - 0)%R).
      * apply derivable_pt_lim_minus; [apply derivable_pt_lim_exp|apply derivable_pt_lim_const].
      * apply (derivable_pt_lim_mult (mult_real_fct 4 id) (plus_fct exp (fct_cte 1)) c (4 * 1)%R (exp c + 0)%R).
        -- apply derivable_pt_lim_scal, derivable_pt_lim_id.
        -- apply derivable_pt_lim_plus; [apply derivable_pt_lim_exp|apply derivable_pt_lim_const].
      * unfold mult_fct, mult_real_fct, plus_fct, fct_cte, id. apply Rgt_not_eq. apply Rmult_lt_0_compat; lra.
  - intros c Hc. pose proof (exp_pos c) as Hp. apply Rdiv_lt_0_compat.
    + pose proof (sinh_above c ltac:(lra)) as Hs.
      assert (E : (exp c * exp (- c) = 1)%R) by (rewrite <- exp_plus; replace (c + - c)%R with 0%R by ring; apply exp_0). nra.
    + apply Rmult_lt_0_compat; nra.
Qed.

(** ** The bound of one term: ln(1 + e^x) - x/2 as a function of x^2 lies below its tangents. *)
Definition half_log (x : R) : R := (ln (1 + exp x) - x / 2)%R.
Lemma half_log_even x : half_log (- x) = half_log x.
Proof.
  unfold half_log. pose proof (exp_pos x). pose proof (exp_pos (- x)).
  replace (1 + exp x)%R with (exp x * (1 + exp (- x)))%R.
  - rewrite ln_mult, ln_exp by lra. field.
  - rewrite Rmult_plus_distr_l, <- exp_plus. replace (x + - x)%R with 0%R by ring. rewrite exp_0. ring.
Qed.
Lemma half_log_deriv x : derivable_pt_lim half_log x ((exp x - 1) / (2 * (exp x + 1)))%R.
Proof.
  pose proof (exp_pos x).
  apply (deriv_ext (minus_fct (comp ln (plus_fct (fct_cte 1) exp)) (mult_real_fct (/ 2) id))%R _ x
          (/ (1 + exp x) * (0 + exp x) - / 2 * 1)%R).
  - intros y. unfold half_log, minus_fct, comp, plus_fct, fct_cte, mult_real_fct, id. field.
  - field. lra.
  - apply derivable_pt_lim_minus.
    + apply derivable_pt_lim_comp; [apply derivable_pt_lim_plus; [apply derivable_pt_lim_const|apply derivable_pt_lim_exp]|].
      unfold plus_fct, fct_cte. apply derivable_pt_lim_ln. lra.
    + apply derivable_pt_lim_scal, derivable_pt_lim_id.
Qed.
Section tangent.
  Variable xi : R.
  Hypothesis Hxi : (0 < xi)%R.
  Definition gap (x : R) : R := (half_log x - jaakkola xi * (x * x))%R.
  Definition gap' (x : R) : R := ((exp x - 1) / (2 * (exp x + 1)) - 2 * jaakkola xi * x)%R.
  Lemma gap_deriv x : derivable_pt_lim gap x (gap' x).
  Proof.
    apply (deriv_ext (minus_fct half_log (mult_real_fct (jaakkola xi) (mult_fct id id))) _ x
            ((exp x - 1) / (2 * (exp x + 1)) - jaakkola xi * (1 * x + x * 1))%R); [reflexivity|unfold gap'; ring|].
    apply derivable_pt_lim_minus; [apply half_log_deriv|]. apply derivable_pt_lim_scal.
    apply (derivable_pt_lim_mult id id x 1%R 1%R); apply derivable_pt_lim_id.
  Qed.
  Lemma gap'_is x : (0 < x)%R -> gap' x = (2 * x * (jaakkola x - jaakkola xi))%R.
  Proof.
    intros Hx. unfold gap'. rewrite (jaakkola_is x) by lra. pose proof (exp_pos x). field. split; lra.
  Qed.
  Lemma gap_strict x : (0 <= x)%R -> x <> xi -> (gap x < gap xi)%R.
  Proof.
    intros Hx Hne. destruct (Rlt_le_dec x xi) as [Hl|Hg].
    - apply (mono_deriv_strict gap gap' x xi Hl); [intros; apply gap_deriv|].
      intros c Hc. rewrite gap'_is by lra. pose proof (jaakkola_decr c xi ltac:(lra) ltac:(lra)).
      apply Rmult_lt_0_compat; lra.
    - assert (H : (- gap xi < - gap x)%R); [|lra].
      apply (mono_deriv_strict (fun t => - gap t)%R (fun t => - gap' t)%R xi x ltac:(lra)).
      + intros c _. apply (deriv_ext (opp_fct gap) _ c (- gap' c)%R); [reflexivity|reflexivity|]. apply derivable_pt_lim_opp, gap_deriv.
      + intros c Hc. rewrite gap'_is by lra. pose proof (jaakkola_decr xi c ltac:(lra) ltac:(lra)).
        assert (0 < 2 * c * (jaakkola xi - jaakkola c))%R by (apply Rmult_lt_0_compat; lra). lra.
  Qed.
  Lemma gap_abs x : gap (Rabs x) = gap x.
  Proof.
    unfold Rabs. destruct (Rcase_abs x); [|reflexivity]. unfold gap. rewrite half_log_even. ring.
  Qed.
  (** Jaakkola and Jordan's inequality, and when it is strict. *)
  Lemma tangent_bound x : (half_log x <= half_log xi + jaakkola xi * (x * x - xi * xi))%R.
  Proof.
    assert (H : (gap x <= gap xi)%R); [|unfold gap in H; lra]. rewrite <- gap_abs.
    destruct (Req_dec (Rabs x) xi) as [->|Hne]; [lra|]. left. apply gap_strict; [apply Rabs_pos|exact Hne].
  Qed.
  Lemma tangent_strict x : (0 <= x)%R -> x <> xi -> (half_log x < half_log xi + jaakkola xi * (x * x - xi * xi))%R.
  Proof. intros H0 H1. pose proof (gap_strict x H0 H1) as H. unfold gap in H. lra. Qed.
End tangent.

(** ** Bouchard's bound *)
(** The sum of the exponentials is at most the product of one plus each. *)
Lemma sum_below_product l : (1 <= fold_right (fun y a => (1 + exp y) * a) 1 l)%R /\
  (fold_right (fun y a => exp y + a) 0 l <= fold_right (fun y a => (1 + exp y) * a) 1 l - 1)%R.
Proof.
  induction l as [|y l [I1 I2]]; cbn [fold_right]; [lra|]. pose proof (exp_pos y). nra.
Qed.
Lemma ln_product l : ln (fold_right (fun y a => (1 + exp y) * a) 1 l)%R = fold_right (fun y a => ln (1 + exp y) + a)%R 0%R l.
Proof.
  induction l as [|y l IH]; cbn [fold_right]; [apply ln_1|]. pose proof (exp_pos y). pose proof (sum_below_product l) as [H1 _].
  rewrite ln_mult by lra. rewrite IH. reflexivity.
Qed.
Lemma fold_vsum (g : R -> R) K (y : vec) : vsum K (fun k => g (y k)) = fold_right (fun x a => g x + a)%R 0%R (map y (seq 0 K)).
Proof.
  unfold vsum. induction (seq 0 K) as [|k l IH]; cbn [map fold_right rsum]; [reflexivity|]. rewrite <- IH. reflexivity.
Qed.
Lemma lse_products K (y : vec) : 0 < K -> (ln (vsum K (fun k => exp (y k))) <= vsum K (fun k => ln (1 + exp (y k))))%R.
Proof.
  intros HK. rewrite (fold_vsum (fun x => ln (1 + exp x))%R), <- ln_product.
  pose proof (sum_below_product (map y (seq 0 K))) as [_ H]. apply ln_mono; [apply exps_pos; exact HK|].
  rewrite (fold_vsum exp). lra.
Qed.
Lemma lse_shift K (x : vec) s : 0 < K -> ln (vsum K (fun k => exp (x k))) = (s + ln (vsum K (fun k => exp (x k - s))))%R.
Proof.
  intros HK. pose proof (exps_pos K HK (fun k => x k - s)%R) as Hp. cbv beta in Hp.
  rewrite <- (ln_exp s) at 1. rewrite <- ln_mult by (try apply exp_pos; exact Hp). f_equal. rewrite <- vsum_scale.
  apply vsum_ext. intros k _. rewrite <- exp_plus. f_equal. ring.
Qed.
Theorem bouchard_bound K s (xi x : vec) : 0 < K -> (forall k, k < K -> (0 < xi k)%R) ->
  (ln (vsum K (fun k => exp (x k))) <= bouchard K s xi x)%R.
Proof.
  intros HK Hxi. rewrite (lse_shift K x s HK). unfold bouchard.
  apply Rplus_le_compat_l. apply (Rle_trans _ _ _ (lse_products K (fun k => x k - s)%R HK)).
  apply vsum_le. intros k Hk. pose proof (tangent_bound (xi k) (Hxi k Hk) (x k - s)) as H. unfold half_log in H. lra.
Qed.

(** ** The steps *)
Section step.
  Variables (K T : nat) (v : mat) (mu : vec) (P : mat) (w : vec) (s : R) (xi : vec).
  Hypothesis HK : 0 < K.
  Hypothesis Hv : covers K T v.
  Hypothesis Hw : forall t, t < T -> (0 <= w t)%R.
  Hypothesis Hxi : forall k, k < K -> (0 < xi k)%R.
  Let N := vsum T w.
  Let l (k : nat) := jaakkola (xi k).

  Lemma N_nonneg : (0 <= N)%R.
  Proof. clear HK Hv Hxi. apply vsum_nonneg. exact Hw. Qed.

  (** The equations of the means. *)
  Definition bouch_solves (m m' : vec) : Prop := forall k, k < K ->
    (vsum K (fun j => P k j * m' j) + 2 * N * l k * m' k
     = expected K T v w m k - N / 2 + 2 * N * l k * s + vsum K (fun j => P k j * mu j))%R.

  Lemma means_gain (m m' u : vec) : symm K P -> bouch_solves m m' ->
    (objective K T v mu P w s xi m u + quad K P (fun k => m' k - m k) (fun k => m' k - m k) / 2
     + N * vsum K (fun k => l k * ((m' k - m k) * (m' k - m k)))
     <= objective K T v mu P w s xi m' u)%R.
  Proof.
    intros HP HS. set (h := fun k => (m' k - m k)%R).
    assert (E : (quad K P h m' + vsum K (fun k => 2 * N * l k * m' k * h k)
                 = vsum K (fun k => expected K T v w m k * h k) - N / 2 * vsum K h
                   + vsum K (fun k => 2 * N * l k * s * h k) + quad K P h mu)%R).
    { rewrite (quad_mat K P h m'), (quad_mat K P h mu), <- vsum_scale, <- vsum_minus, <- !vsum_plus. apply vsum_ext. intros k Hk.
      pose proof (HS k Hk). nra. }
    rewrite (quad_ext K P P h m' h (fun k => m k + h k)%R) in E; [|reflexivity|reflexivity|intros; unfold h; ring].
    rewrite quad_add_r in E.
    assert (Q : quad K P (fun k => m' k - mu k)%R (fun k => m' k - mu k)%R =
      quad K P (fun k => (m k - mu k) + h k)%R (fun k => (m k - mu k) + h k)%R)
      by (apply quad_ext; [reflexivity| |]; intros; unfold h; ring).
    rewrite (quad_square K P (fun k => m k - mu k)%R h HP), (quad_sub_r K P m mu h) in Q.
    pose proof (expected_gain K T v w m Hv Hw h) as G.
    rewrite (vsum_ext T _ (fun t => w t * ln (mass K v m' t) - w t * ln (mass K v m t))%R) in G.
    2:{ intros t _. replace (mass K v (fun k => m k + h k)%R t) with (mass K v m' t); [ring|].
        apply vsum_ext. intros k _. do 2 f_equal. unfold h. ring. }
    rewrite vsum_minus in G.
    assert (B : bouchard K s xi m' = (bouchard K s xi m + vsum K h / 2
                + vsum K (fun k => l k * (2 * (m k - s) * h k + h k * h k)))%R).
    { unfold bouchard. replace (vsum K h / 2)%R with (vsum K (fun k => h k / 2)%R) by (unfold Rdiv; apply vsum_scale_r). rewrite !Rplus_assoc, <- !vsum_plus. f_equal. apply vsum_ext. intros k _. unfold h, l. field. }
    assert (L : (vsum K (fun k => 2 * N * l k * m' k * h k) - vsum K (fun k => 2 * N * l k * s * h k)
                 = N * vsum K (fun k => l k * (2 * (m k - s) * h k + h k * h k)) + N * vsum K (fun k => l k * (h k * h k)))%R).
    { rewrite <- vsum_minus, <- !vsum_scale, <- vsum_plus. apply vsum_ext. intros k _. unfold h. ring. }
    unfold objective. fold N. unfold mass in G. fold (h 0%nat) in *.
    change (fun k => (m' k - m k)%R) with h.
    change (vsum K (fun k => l k * ((m' k - m k) * (m' k - m k)))%R) with (vsum K (fun k => l k * (h k * h k))%R).
    rewrite B, Q. nra.
  Qed.
  Lemma means_grow (m m' u : vec) : symm K P -> psd K P -> bouch_solves m m' ->
    (objective K T v mu P w s xi m u <= objective K T v mu P w s xi m' u)%R.
  Proof.
    intros HP HPP HS. pose proof (means_gain m m' u HP HS) as G. pose proof (HPP (fun k => m' k - m k)%R).
    assert (0 <= N * vsum K (fun k => l k * ((m' k - m k) * (m' k - m k))))%R; [|lra].
    apply Rmult_le_pos; [apply N_nonneg|]. apply vsum_nonneg. intros k Hk.
    apply Rmult_le_pos; [left; apply jaakkola_pos, Hxi; exact Hk|exact (Rle_0_sqr (m' k - m k))].
  Qed.
  (** The variances. *)
  Lemma varcs_grow (m u u' : vec) : (forall k, k < K -> (0 < P k k)%R) -> (forall k, k < K -> (0 < u k)%R) ->
    (forall k, k < K -> u' k = (/ (2 * N * l k + P k k))%R) ->
    (objective K T v mu P w s xi m u <= objective K T v mu P w s xi m u')%R.
  Proof.
    intros HP Hu HU. unfold objective. fold N.
    assert (H : (vsum K (fun k => ln (u k) / 2 - (N * l k + P k k / 2) * u k) <= vsum K (fun k => ln (u' k) / 2 - (N * l k + P k k / 2) * u' k))%R).
    { apply vsum_le. intros k Hk. rewrite (HU k Hk). set (a := (2 * N * l k + P k k)%R).
      assert (Ha : (0 < a)%R).
      { unfold a. pose proof (HP k Hk). pose proof N_nonneg. pose proof (jaakkola_pos (xi k) (Hxi k Hk)).
        assert (0 <= N * l k)%R by (apply Rmult_le_pos; unfold l; lra). lra. }
      replace (N * l k + P k k / 2)%R with (a / 2)%R by (unfold a; field).
      pose proof (Hu k Hk). pose proof (ln_le_sub1 (a * u k) ltac:(apply Rmult_lt_0_compat; assumption)) as L.
      rewrite ln_mult in L by assumption. rewrite ln_Rinv by exact Ha.
      replace (a / 2 * / a)%R with (1 / 2)%R by (field; lra). lra. }
    rewrite !vsum_minus in H.
    assert (A : forall z : vec, (vsum K (fun k => (N * l k + P k k / 2) * z k) = N * vsum K (fun k => jaakkola (xi k) * z k) + vsum K (fun k => P k k * z k) / 2)%R).
    { intros z. unfold Rdiv at 2. rewrite <- vsum_scale, <- vsum_scale_r, <- vsum_plus. apply vsum_ext. intros k _. unfold l. field. }
    assert (B : forall z : vec, (vsum K (fun k => ln (z k) / 2) = vsum K (fun k => ln (z k)) / 2)%R) by (intros; unfold Rdiv; apply vsum_scale_r).
    rewrite !A, !B in H. lra.
  Qed.
  (** The tangents: the best are at the root of the second moment. *)
  Lemma tangents_best (m u xi' : vec) : (forall k, k < K -> (0 <= u k)%R) -> (forall k, k < K -> (0 < xi' k)%R) ->
    (forall k, k < K -> (xi' k * xi' k)%R = ((m k - s) * (m k - s) + u k)%R) ->
    (objective K T v mu P w s xi m u <= objective K T v mu P w s xi' m u)%R.
  Proof.
    intros Hu Hx' E. unfold objective. fold N.
    assert (H : (bouchard K s xi' m + vsum K (fun k => jaakkola (xi' k) * u k) <= bouchard K s xi m + vsum K (fun k => jaakkola (xi k) * u k))%R).
    { unfold bouchard. rewrite !Rplus_assoc, <- !vsum_plus. apply Rplus_le_compat_l, vsum_le. intros k Hk.
      pose proof (E k Hk) as Ek. pose proof (tangent_bound (xi k) (Hxi k Hk) (xi' k)) as B. unfold half_log in B. rewrite Ek in B.
      replace ((m k - s) * (m k - s) - xi' k * xi' k)%R with (- u k)%R by lra. nra. }
    pose proof N_nonneg. nra.
  Qed.
End step.
