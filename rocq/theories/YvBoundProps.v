(** * Property C287: the bound that stm_yv reports *)
From Coq Require Import List Reals ZArith Arith Bool Lra Lia.
From Verif Require Import Base RealModel RealProofs VbModel VbProofs LinkModel LinkProps CtmModel CtmProofs CtmProps StmProofs StmProps MtmModel MtmProofs
  MtmProps BouchModel BouchProofs BouchProps YvBoundModel.
Import ListNotations.
Open Scope nat_scope.

Section yvbound.
  Variables (K F P D T : nat) (inv : mat -> mat) (det : nat -> mat -> R) (least tiny : R) (W X : mat) (n : vec) (fv lfv : R).
  Notation xi q := (fun d k => derive_xi (bq_means q d k) (bq_varcs q d k) (bq_s q d)).
  Definition tr (m : nat) (M : mat) : R := vsum m (fun i => M i i).
  Definition spread (S A Y V : mat) : R := vsum F (fun f => quad K S (fun k => A k f - vsum P (fun p => Y k p * V p f)) (fun k => A k f - vsum P (fun p => Y k p * V p f)))%R.
  (** The variational bound, up to a constant: of the documents, and of the latent map and
      the map from features, whose rows have the covariances RY and RA and whose columns have
      that of the topics. *)
  Definition yv_elbo (A RA Y RY V sigT vocab : mat) (q : bquery) : R :=
    (vsum D (fun d => objective K T vocab (fun k => vsum F (fun f => X d f * A k f)) (inv sigT) (W d) (bq_s q d) (xi q d) (bq_means q d) (bq_varcs q d))
     - INR D / 2 * vsum K (fun k => ln (sigT k k)) - INR K / 2 * vsum F (fun f => vsum F (fun g => vsum D (fun d => X d f * X d g) * RA g f))
     - 1 / (2 * lfv) * (vsum P (fun p => quad K (inv sigT) (fun k => Y k p) (fun k => Y k p)) + INR K * tr P RY) + INR K / 2 * ln (det P RY)
     - 1 / (2 * fv) * (spread (inv sigT) A Y V + INR K * tr F RA + INR K * vsum F (fun f => quad P RY (fun p => V p f) (fun p => V p f))) + INR K / 2 * ln (det F RA))%R.
  (** What is reported less that. *)
  Definition yv_excess (A RA Y RY V sigT : mat) (q : bquery) : R :=
    (- vsum D (fun d => n d * vmax K (bq_means q d)) - (INR P + INR F) / 2 * vsum K (fun k => ln (sigT k k))
     - (1 / (2 * lfv) - 1 / (2 * fv)) * spread (inv sigT) A Y V - INR K / 2 * (1 - 1 / lfv) * tr P RY - INR K / 2 * (1 - 1 / fv) * tr F RA
     + INR K / (2 * fv) * vsum F (fun f => quad P RY (fun p => V p f) (fun p => V p f)))%R.

  Lemma sum_quad m (S Z : mat) c : (forall i j, i < K -> j < K -> S i j = S j i) ->
    vsum K (fun k => vsum m (fun p => c * vsum K (fun j => S k j * Z j p) * Z k p))%R = (c * vsum m (fun p => quad K S (fun k => Z k p) (fun k => Z k p)))%R.
  Proof.
    intros HS. rewrite (vsum_swap K m), <- vsum_scale. apply vsum_ext. intros p _. unfold quad. rewrite <- vsum_scale. apply vsum_ext. intros k Hk. rewrite Rmult_assoc, <- vsum_scale_r. f_equal. apply vsum_ext. intros; ring.
  Qed.
  Definition yv_const : R := (- (INR P * INR K / 2 * ln (2 * PI)) - INR K * INR P * ln lfv + 5 / 10 * ln (2 * PI * exp 1) - INR F * INR K / 2 * ln (2 * PI) - INR K * INR P * ln fv + 5 / 10 * ln (2 * PI * exp 1)
      + INR D * INR K / 2)%R.
  Theorem C287_reported A RA Y RY V sigT vocab q : 0 < K -> (0 < fv)%R -> (0 < lfv)%R -> counts D T W n -> covers K T vocab -> symm K (inv sigT) ->
    (forall d t, d < D -> t < T -> (tiny < vsum K (fun k => exp (bq_means q d k - vmax K (bq_means q d)) * vocab k t))%R) ->
    (forall d k, d < D -> k < K -> bq_lxi q d k = jaakkola (xi q d k)) -> (least <= det P RY)%R -> (least <= det F RA)%R ->
    yv_bound K F P D T inv det least tiny W X n fv lfv A RA Y RY V sigT vocab q
    = (yv_elbo A RA Y RY V sigT vocab q + yv_excess A RA Y RY V sigT q + yv_const)%R.
  Proof.
    intros HK Hf Hl [H0 Hn] Hv HS Ht Hx D1 D2. unfold yv_bound, ln_det_diag. cbv zeta.
    assert (SD : forall m M, (least <= det m M)%R -> safe_det det least m M = det m M).
    { intros m M H. unfold safe_det. replace (rltb (det m M) least) with false; [reflexivity|]. symmetry. apply rltb_false. exact H. }
    rewrite (SD P RY D1), (SD F RA D2). set (S := inv sigT) in *.
    rewrite (sum_quad P S Y (1 / lfv) HS). rewrite (sum_quad F S (fun k f => A k f - vsum P (fun p => Y k p * V p f))%R (1 / lfv) HS). fold (spread S A Y V). fold (tr P RY) (tr F RA).
    rewrite (vsum_ext D (fun d => vsum T (fun t => W d t * safe_ln tiny (vsum K (fun k => exp_means K (bq_means q) d k * vocab k t))))%R
      (fun d => vsum T (fun t => W d t * ln (vsum K (fun k => exp (bq_means q d k - vmax K (bq_means q d)) * vocab k t))))%R).
    2:{ intros d Hd. apply vsum_ext. intros t Ht0. f_equal. unfold safe_ln, exp_means. pose proof (Ht d t Hd Ht0) as H.
        unfold rltb. destruct (Rlt_dec _ _); [reflexivity|contradiction]. }
    unfold yv_elbo, yv_excess, yv_const. fold S.
    set (mu := fun d k => vsum F (fun f => X d f * A k f)%R).
    set (A1 := fun d => vsum K (fun k => vsum K (fun j => (bq_means q d j - mu d j) * S j k) * (bq_means q d k - mu d k))%R).
    set (A2 := fun d => vsum K (fun k => bq_varcs q d k * S k k)%R).
    set (A3 := fun d => vsum K (fun k => ln (bq_varcs q d k))).
    set (A4 := fun d => vsum K (fun k => bound_topic (bq_means q d k) (bq_varcs q d k) (bq_lxi q d k) (bq_s q d)
                                          (derive_xi (bq_means q d k) (bq_varcs q d k) (bq_s q d)) (n d))).
    set (A5 := fun d => vsum T (fun t => W d t * ln (vsum K (fun k => exp (bq_means q d k - vmax K (bq_means q d)) * vocab k t)))%R).
    change (vsum D (fun d => vsum K (fun k => vsum K (fun j => (bq_means q d j - vsum F (fun f => X d f * A j f)) * S j k) * (bq_means q d k - vsum F (fun f => X d f * A k f))))%R) with (vsum D A1).
    rewrite (vsum_ext D (fun d => objective _ _ _ _ _ _ _ _ _ _)
      (fun d => (-5/10) * A1 d + ((-5/10) * A2 d + (5/10 * A3 d + (A4 d + (A5 d + (n d * vmax K (bq_means q d) - bq_s q d * n d))))))%R).
    - rewrite !vsum_plus, vsum_minus, !vsum_scale.
      rewrite (ln_mult (2 * PI) (exp 1)), ln_exp by (try apply exp_pos; pose proof PI_RGT_0; lra). field. split; lra.
    - intros d Hd. unfold objective. rewrite (words_shift K T vocab (W d) (bq_means q d) HK Hv), <- (Hn d Hd). fold (A5 d). fold (A3 d).
      assert (E1 : quad K S (fun k => bq_means q d k - mu d k)%R (fun k => bq_means q d k - mu d k)%R = A1 d).
      { unfold A1, quad. rewrite (vsum_swap K K (fun i j => (bq_means q d i - mu d i) * S i j * (bq_means q d j - mu d j))%R).
        apply vsum_ext. intros k _. rewrite vsum_scale_r. reflexivity. }
      assert (E2 : vsum K (fun k => S k k * bq_varcs q d k)%R = A2 d) by (apply vsum_ext; intros; ring).
      assert (E4 : A4 d = (bq_s q d * n d - n d * (bouchard K (bq_s q d) (xi q d) (bq_means q d) + vsum K (fun k => jaakkola (xi q d k) * bq_varcs q d k)))%R).
      { unfold A4, bouchard. rewrite (Rplus_assoc (bq_s q d)), <- vsum_plus, Rmult_plus_distr_l, <- vsum_scale.
        match goal with |- _ = (_ - (_ + ?s))%R => replace (bq_s q d * n d - (n d * bq_s q d + s))%R with (- s)%R by ring end.
        rewrite <- vsum_opp. apply vsum_ext. intros k Hk. unfold bound_topic. rewrite (Hx d k Hd Hk). field. }
      unfold mu in E1. rewrite E1, E2, E4. field.
  Qed.
End yvbound.

(** ** One topic, one feature, one word *)
Definition d1 (m : nat) (M : mat) : R := M 0%nat 0%nat.
Definition i1 (M : mat) : mat := fun _ _ => (/ M 0%nat 0%nat)%R.
Definition cst (c : R) : mat := fun _ _ => c.
Definition q1 (m : R) : bquery := {| bq_means := cst m; bq_varcs := cst 1; bq_lxi := lxi_of (cst m) (cst 1) (fun _ => 0%R); bq_s := fun _ => 0%R |}.
Lemma q1_lxi m d k : bq_lxi (q1 m) d k = jaakkola (derive_xi (bq_means (q1 m) d k) (bq_varcs (q1 m) d k) (bq_s (q1 m) d)).
Proof.
  change (bq_lxi (q1 m) d k) with (neg_jakkola (derive_xi (bq_means (q1 m) d k) (bq_varcs (q1 m) d k) (bq_s (q1 m) d))).
  apply neg_jakkola_is. apply Rgt_not_eq. apply xi_pos. cbn [bq_varcs q1]. unfold cst. lra.
Qed.
Lemma max1 m d : vmax 1 (bq_means (q1 m) d) = m.
Proof. reflexivity. Qed.
Lemma cover1 : covers 1 1 (cst 1).
Proof. split; [intros; unfold cst; lra|]. intros t _. exists 0. split; [lia|unfold cst; lra]. Qed.
Lemma count1 c : (0 <= c)%R -> counts 1 1 (cst c) (fun _ => c).
Proof. intros H. split; [intros; exact H|]. intros d _. unfold vsum, cst. cbn. ring. Qed.
Lemma tiny1 m d : (1 / 1000 < vsum 1 (fun k => exp (bq_means (q1 m) d k - vmax 1 (bq_means (q1 m) d)) * cst 1 k 0%nat))%R.
Proof. rewrite max1. cbn [bq_means q1]. unfold cst, vsum. cbn. replace (m - m)%R with 0%R by ring. rewrite exp_0. lra. Qed.

(** Two models that differ only in the latent features: the worse one is reported to be the
    better one. *)
Theorem C287_order_refuted : exists K F P D T inv det least tiny W X n fv lfv A RA Y RY V1 V2 sigT vocab q, counts D T W n /\ covers K T vocab /\ symm K sigT /\ posdef K sigT /\ is_inverse K sigT (inv sigT) /\
  symm P RY /\ posdef P RY /\ (forall d k, d < D -> k < K -> bq_lxi q d k = jaakkola (derive_xi (bq_means q d k) (bq_varcs q d k) (bq_s q d))) /\
  (yv_elbo K F P D T inv det W X fv lfv A RA Y RY V2 sigT vocab q < yv_elbo K F P D T inv det W X fv lfv A RA Y RY V1 sigT vocab q)%R /\
  (yv_bound K F P D T inv det least tiny W X n fv lfv A RA Y RY V1 sigT vocab q < yv_bound K F P D T inv det least tiny W X n fv lfv A RA Y RY V2 sigT vocab q)%R.
Proof.
  exists 1, 1, 1, 1, 1, i1, d1, (1 / 2)%R, (1 / 1000)%R, (cst 1), (cst 1), (fun _ => 1%R), 1%R, 1%R, (cst 1), (cst 1), (cst 1), (cst 3), (cst 0), (cst 1), (cst 1), (cst 1), (q1 0).
  assert (PD : forall c, (0 < c)%R -> symm 1 (cst c) /\ posdef 1 (cst c)).
  { intros c Hc. split; [intros i j _ _; reflexivity|]. intros x (k & Hk & Hx). assert (k = 0) by lia. subst k. unfold quad, vsum, cst. cbn. pose proof (Rsqr_pos_lt _ Hx) as H. unfold Rsqr in H. nra. }
  split; [apply count1; lra|]. split; [exact cover1|]. split; [apply PD; lra|]. split; [apply PD; lra|].
  split; [intros [|i] [|j] Hi Hj; try lia; unfold i1, cst, vsum, eye; cbn; field|]. split; [apply PD; lra|]. split; [apply PD; lra|]. split; [intros; apply q1_lxi|].
  assert (E : (yv_elbo 1 1 1 1 1 i1 d1 (cst 1) (cst 1) 1 1 (cst 1) (cst 1) (cst 1) (cst 3) (cst 0) (cst 1) (cst 1) (q1 0)
     = yv_elbo 1 1 1 1 1 i1 d1 (cst 1) (cst 1) 1 1 (cst 1) (cst 1) (cst 1) (cst 3) (cst 1) (cst 1) (cst 1) (q1 0) + 1)%R).
  { unfold yv_elbo, spread, quad, tr, i1, cst, vsum, rsum. cbn [seq map fold_right fold_left INR]. field. }
  split; [lra|].
  assert (SI : symm 1 (i1 (cst 1))) by (intros i j _ _; reflexivity).
  rewrite !C287_reported; try lia; try lra; try (apply count1; lra); try exact cover1; try exact SI; try (intros; apply q1_lxi); try (unfold d1, cst; lra);
    try (intros d t _ _; exact (tiny1 0 d)).
  rewrite E. unfold yv_excess, spread, quad, tr, i1, cst, vsum, rsum. cbn [seq map fold_right fold_left INR]. lra.
Qed.

(** With a small covariance of the topics the value is positive, although the words are
    certain and no lower bound of the logarithm of a probability is positive. *)
Theorem C287_not_positive_refuted : exists K F P D T inv det least tiny W X n fv lfv A RA Y RY V sigT vocab q, counts D T W n /\ covers K T vocab /\ (forall k, k < K -> vsum T (vocab k) = 1%R) /\
  symm K sigT /\ posdef K sigT /\ is_inverse K sigT (inv sigT) /\ (forall d k, d < D -> k < K -> (0 < bq_varcs q d k)%R /\ bq_lxi q d k = jaakkola (derive_xi (bq_means q d k) (bq_varcs q d k) (bq_s q d))) /\
  (forall d m, d < D -> log_like K T vocab (W d) m = 0%R) /\
  (0 < yv_bound K F P D T inv det least tiny W X n fv lfv A RA Y RY V sigT vocab q)%R.
Proof.
  set (g := exp (-100)). assert (Hg : (0 < g)%R) by apply exp_pos. assert (Hg1 : (g <= 1)%R). { unfold g. rewrite <- exp_0. left. apply exp_increasing. lra. }
  set (q := {| bq_means := cst 0; bq_varcs := cst g; bq_lxi := lxi_of (cst 0) (cst g) (fun _ => 0%R); bq_s := fun _ => 0%R |}).
  assert (HX : forall d k, bq_lxi q d k = jaakkola (derive_xi (bq_means q d k) (bq_varcs q d k) (bq_s q d))).
  { intros d k. change (bq_lxi q d k) with (neg_jakkola (derive_xi (bq_means q d k) (bq_varcs q d k) (bq_s q d))). apply neg_jakkola_is. apply Rgt_not_eq. apply xi_pos. exact Hg. }
  exists 1, 1, 1, 1, 1, i1, d1, (1 / 2)%R, (1 / 1000)%R, (cst 1), (cst 1), (fun _ => 1%R), 1%R, 1%R, (cst 0), (cst 1), (cst 0), (cst 1), (cst 0), (cst g), (cst 1), q.
  assert (PD : forall c, (0 < c)%R -> symm 1 (cst c) /\ posdef 1 (cst c)).
  { intros c Hc. split; [intros i j _ _; reflexivity|]. intros x (k & Hk & Hx). assert (k = 0) by lia. subst k. unfold quad, vsum, cst. cbn. pose proof (Rsqr_pos_lt _ Hx) as H. unfold Rsqr in H. nra. }
  split; [apply count1; lra|]. split; [exact cover1|]. split; [intros; unfold vsum, rsum, cst; cbn; lra|]. split; [apply PD; lra|]. split; [apply PD; lra|].
  split; [intros [|i] [|j] Hi Hj; try lia; unfold i1, cst, vsum, rsum, eye; cbn; field; lra|]. split; [intros; split; [exact Hg|apply HX]|].
  split. { intros d m _. unfold log_like, softmax, cst, vsum, rsum. cbn. pose proof (exp_pos (m 0%nat)). match goal with |- context [ln ?x] => replace x with 1%R by (field; lra) end. rewrite ln_1. ring. }
  rewrite C287_reported; try lia; try lra; try (apply count1; lra); try exact cover1; try (intros i j _ _; reflexivity); try (intros; apply HX); try (unfold d1, cst; lra).
  2:{ intros d t _ _. change (vmax 1 (bq_means q d)) with 0%R. cbn [bq_means q]. unfold cst, vsum, rsum. cbn. replace (0 - 0)%R with 0%R by ring. rewrite exp_0. lra. }
  assert (EX : derive_xi 0 g 0 = g). { unfold derive_xi. replace (0 * 0 - 2 * 0 * 0 + 0 * 0 + g * g)%R with (g * g)%R by ring. apply sqrt_square. lra. }
  assert (LG : ln g = (-100)%R) by apply ln_exp.
  assert (EQ : objective 1 1 (cst 1) (fun k => vsum 1 (fun f => (cst 1 0%nat f * cst 0 k f)%R)) (i1 (cst g)) (cst 1 0%nat) (bq_s q 0%nat) (fun k => derive_xi (bq_means q 0%nat k) (bq_varcs q 0%nat k) (bq_s q 0%nat)) (bq_means q 0%nat) (bq_varcs q 0%nat)
     = (- ((0 - g) / 2 + jaakkola g * (0 - g * g) + ln (1 + exp g) + jaakkola g * g) - 1 / 2 - 50)%R).
  { unfold objective, bouchard, quad, i1, vsum, rsum, q. cbn [seq map fold_right fold_left bq_means bq_varcs bq_s]. unfold cst. rewrite !EX, exp_0, LG. replace (1 * 1 + 0)%R with 1%R by ring. rewrite ln_1. field. lra. }
  unfold yv_elbo, yv_excess, yv_const. change (vsum 1 (fun d => objective 1 1 (cst 1) (fun k => vsum 1 (fun f => cst 1 d f * cst 0 k f)%R) (i1 (cst g)) (cst 1 d) (bq_s q d) (fun k => derive_xi (bq_means q d k) (bq_varcs q d k) (bq_s q d)) (bq_means q d) (bq_varcs q d)))
    with (objective 1 1 (cst 1) (fun k => vsum 1 (fun f => cst 1 0%nat f * cst 0 k f)%R) (i1 (cst g)) (cst 1 0%nat) (bq_s q 0%nat) (fun k => derive_xi (bq_means q 0%nat k) (bq_varcs q 0%nat k) (bq_s q 0%nat)) (bq_means q 0%nat) (bq_varcs q 0%nat) + 0)%R.
  rewrite EQ. change (vmax 1 (bq_means q 0%nat)) with 0%R.
  rewrite (ln_mult (2 * PI) (exp 1)), ln_exp by (try apply exp_pos; pose proof PI_RGT_0; lra).
  unfold spread, quad, tr, i1, d1, cst, vsum, rsum. cbn [seq map fold_right fold_left INR]. change (vmax 1 (bq_means q 0%nat)) with 0%R. rewrite LG, ln_1.
  pose proof (ln_one_plus_exp g) as L1. assert (L2 : (exp (- g) <= 1)%R). { rewrite <- exp_0. destruct (Req_dec g 0); [lra|]. left. apply exp_increasing. lra. }
  assert (J : (0 < jaakkola g < 1 / 8)%R) by (split; [apply jaakkola_pos|apply jaakkola_below]; exact Hg). assert (J1 : (jaakkola g * g <= 1 / 8)%R) by nra. assert (J2 : (0 <= jaakkola g * (g * g))%R) by (apply Rmult_le_pos; nra).
  assert (I0 : (0 * / g * 0 = 0)%R) by ring. rewrite ?I0. nra.
Qed.
Example C287_case : counts 1 1 (cst 1) (fun _ => 1%R) /\ covers 1 1 (cst 1) /\ (forall d k, bq_lxi (q1 0) d k = jaakkola (derive_xi (bq_means (q1 0) d k) (bq_varcs (q1 0) d k) (bq_s (q1 0) d))) /\
  (forall d, (1 / 1000 < vsum 1 (fun k => exp (bq_means (q1 0) d k - vmax 1 (bq_means (q1 0) d)) * cst 1 k 0%nat))%R).
Proof. split; [apply count1; lra|]. split; [exact cover1|]. split; [apply q1_lxi|]. intros d. apply tiny1. Qed.

Print Assumptions C287_reported.
Print Assumptions C287_order_refuted.
Print Assumptions C287_not_positive_refuted.
