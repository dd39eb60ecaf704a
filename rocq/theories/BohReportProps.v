(** * C225: what the models with Böhning's bound report *)
From Coq Require Import List Reals Arith Bool Lra Lia.
From Verif Require Import Base RealModel VbModel VbProofs LinkModel LinkProps CtmModel CtmProofs MomModel BohBoundModel BohBoundProps.
Import ListNotations.
Open Scope nat_scope.

(** The expected log density of a document's topics of mean [m] and variances [s] under a normal
    law of mean [mu] and precision [P]; [ld] stands where the logarithm of the covariance's
    determinant is. *)
Definition normal_part (K : nat) (P : mat) (ld : R) (mu m s : vec) : R :=
  (- (INR K / 2 * ln (2 * PI)) - ld / 2 - quad K P (fun k => m k - mu k) (fun k => m k - mu k) / 2 - vsum K (fun k => s k * P k k) / 2)%R.
(** The part of the word t that is due to the topic k. *)
Definition due (K : nat) (vocab : mat) (m : vec) (t k : nat) : R :=
  (softmax K m k * vocab k t / vsum K (fun j => softmax K m j * vocab j t))%R.
(** What is reported beyond the log probability of the words. *)
Definition excess (K T : nat) (A vocab : mat) (w m : vec) : R :=
  let n := vsum T w in
  (2 * n * ln (vsum K (fun k => exp (m k - vmax K m))) + 2 * n * quad K A m m
   - 2 * vsum K (fun k => m k * softmax K m k)
   - n / 2 * vsum K (fun k => A k k * vsum T (fun t => w t * due K vocab m t k)))%R.

Lemma square_quad K S x : square K S x = quad K S x x.
Proof.
  unfold square, quad.
  rewrite (vsum_ext K _ (fun k => vsum K (fun j => x j * S j k * x k)%R)) by (intros; rewrite <- vsum_scale_r; reflexivity).
  apply vsum_swap.
Qed.
Section report.
  Context (K D T : nat) (W : mat) (n : vec) (tiny : R) (vocab means : mat).
  Context (HK : 0 < K) (CO : corpus D T W n) (HT : (0 < tiny)%R).
  Context (FL : forall d t, d < D -> t < T -> (tiny <= vsum K (fun k => exp (means d k - vmax K (means d)) * vocab k t))%R).

  Lemma total_pos d : (0 < vsum K (exp_means K means d))%R.
  Proof. clear CO FL HT. apply vsum_pos; [assumption|]. intros. apply exp_pos. Qed.
  Lemma soft_is d k : softmax K (means d) k = (exp_means K means d k / vsum K (exp_means K means d))%R.
  Proof. clear CO FL HT. rewrite <- (vsoftmax_is K HK). reflexivity. Qed.
  Lemma soft_dot d t : vsum K (fun k => softmax K (means d) k * vocab k t)%R
    = (vsum K (fun k => exp_means K means d k * vocab k t) / vsum K (exp_means K means d))%R.
  Proof.
    clear CO FL HT. unfold Rdiv at 1. rewrite <- vsum_scale_r. apply vsum_ext. intros k _. rewrite soft_is. unfold Rdiv. ring.
  Qed.
  Lemma words_of d : d < D ->
    vsum T (fun t => W d t * safe_ln tiny (vsum K (fun k => exp_means K means d k * vocab k t)))%R
    = (log_like K T vocab (W d) (means d) + n d * ln (vsum K (exp_means K means d)))%R.
  Proof.
    intros Hd. destruct (CO d Hd) as (_ & -> & _). rewrite <- vsum_scale_r. unfold log_like. rewrite <- vsum_plus. apply vsum_ext. intros t Ht.
    specialize (FL d t Hd Ht). fold (exp_means K means d) in FL. rewrite soft_dot.
    change (vsum K (fun k => exp (means d k - vmax K (means d)) * vocab k t))%R with (vsum K (fun k => exp_means K means d k * vocab k t))%R in FL.
    unfold safe_ln, rleb. destruct (Rle_dec tiny _) as [L|L]; [|contradiction].
    pose proof (total_pos d). unfold Rdiv. rewrite ln_mult, ln_Rinv; [ring|assumption|lra|apply Rinv_0_lt_compat; assumption].
  Qed.
  Lemma weights_of d k : d < D -> token_weights K T W (exp_means K means) vocab d k = vsum T (fun t => W d t * due K vocab (means d) t k)%R.
  Proof.
    intros Hd. unfold token_weights, quotient. rewrite <- vsum_scale. apply vsum_ext. intros t Ht. unfold due. rewrite soft_dot, soft_is.
    specialize (FL d t Hd Ht).
    change (vsum K (fun k => exp (means d k - vmax K (means d)) * vocab k t))%R with (vsum K (fun k => exp_means K means d k * vocab k t))%R in FL.
    pose proof (total_pos d). field. split; lra.
  Qed.
  Lemma word_part_is A : word_part K D T W n tiny A vocab means
    = vsum D (fun d => log_like K T vocab (W d) (means d) + excess K T A vocab (W d) (means d))%R.
  Proof.
    unfold word_part. cbv zeta.
    rewrite (vsum_ext D (fun d => vsum T _) _ words_of).
    rewrite (vsum_ext D (fun d => log_like K T vocab (W d) (means d) + excess K T A vocab (W d) (means d))%R
      (fun d => (log_like K T vocab (W d) (means d) + n d * ln (vsum K (exp_means K means d))) + n d * ln (vsum K (exp_means K means d))
        + vsum K (fun k => 2 * n d * vsum K (fun j => means d j * A j k) * means d k)
        - 2 * vsum K (fun k => means d k * vsoftmax K (means d) k)
        - 5 / 10 * vsum K (fun k => n d * token_weights K T W (exp_means K means) vocab d k * A k k))%R).
    - rewrite !vsum_minus, !vsum_plus, !vsum_scale. ring.
    - intros d Hd. unfold excess. cbv zeta. destruct (CO d Hd) as (_ & En & _). rewrite <- En.
      change (vsum K (fun k => exp (means d k - vmax K (means d)))) with (vsum K (exp_means K means d)).
      rewrite <- (square_quad K A (means d)). unfold square.
      rewrite (vsum_ext K (fun k => 2 * n d * vsum K (fun j => means d j * A j k) * means d k)%R (fun k => 2 * n d * (vsum K (fun j => means d j * A j k) * means d k))%R) by (intros; ring).
      rewrite vsum_scale.
      rewrite (vsum_ext K (fun k => means d k * vsoftmax K (means d) k)%R (fun k => means d k * softmax K (means d) k)%R) by (intros; rewrite vsoftmax_is by assumption; reflexivity).
      rewrite (vsum_ext K (fun k => n d * token_weights K T W (exp_means K means) vocab d k * A k k)%R
        (fun k => n d * (A k k * vsum T (fun t => W d t * due K vocab (means d) t k)))%R) by (intros; rewrite weights_of by assumption; ring).
      rewrite vsum_scale. field.
  Qed.

  (** The correlated and the matrix-variate model: for each document, the density of its topics
      with the determinant for its logarithm and without their entropy, the log probability of
      its words, and an excess. *)
  Theorem C225_reported isigT det mu varcs :
    ctm_bound K D T W n tiny isigT det mu vocab means varcs
    = vsum D (fun d => normal_part K isigT det mu (means d) (varcs d) + log_like K T vocab (W d) (means d) + excess K T (bohning K) vocab (W d) (means d))%R /\
    mtm2_bound K D T W n tiny isigT det mu vocab means varcs
    = vsum D (fun d => normal_part K isigT det mu (means d) (varcs d) + log_like K T vocab (W d) (means d) + excess K T (MtmModel.mtm_A K) vocab (W d) (means d))%R.
  Proof.
    assert (G : forall A, topic_bound K D T W n tiny A isigT det mu vocab means varcs
      = vsum D (fun d => normal_part K isigT det mu (means d) (varcs d) + log_like K T vocab (W d) (means d) + excess K T A vocab (W d) (means d))%R);
      [|split; apply G].
    intros A. unfold topic_bound. rewrite word_part_is.
    rewrite (vsum_ext D (fun d => normal_part K isigT det mu (means d) (varcs d) + log_like K T vocab (W d) (means d) + excess K T A vocab (W d) (means d))%R
      (fun d => (- (INR K / 2 * ln_2_pi + det / 2) - 5 / 10 * square K isigT (fun k => means d k - mu k) - 5 / 10 * vsum K (fun k => varcs d k * isigT k k))
        + (log_like K T vocab (W d) (means d) + excess K T A vocab (W d) (means d)))%R).
    - rewrite !vsum_plus, !vsum_minus, !vsum_scale, vsum_const. field.
    - intros d _. unfold normal_part. rewrite square_quad. unfold ln_2_pi. field.
  Qed.
  (** Side topics: a map of [m] columns [Z], given the topics' precision S, a variance v and a
      covariance C of its rows, of which [ld] and [lr] are the logarithms of the determinants. *)
  Definition map_part (m : nat) (S Z C : mat) (v ld lr : R) : R :=
    (- (INR m * INR K / 2 * ln (2 * PI)) - INR m / 2 * ld - 1 / (2 * v) * vsum m (fun p => quad K S (fun k => Z k p) (fun k => Z k p))
     - INR K / 2 * vsum m (fun p => C p p) + (ln (2 * PI) + 1 + INR K * lr) / 2)%R.
  Lemma map_is m S Z v : vsum K (fun k => vsum m (fun p => 1 / v * vsum K (fun j => S k j * Z j p) * Z k p))%R
    = (1 / v * vsum m (fun p => quad K S (fun k => Z k p) (fun k => Z k p)))%R.
  Proof.
    clear. rewrite (vsum_swap K m), <- vsum_scale. apply vsum_ext. intros p _. unfold quad. rewrite <- vsum_scale. apply vsum_ext. intros k Hk.
    rewrite Rmult_assoc, <- vsum_scale_r. f_equal. apply vsum_ext. intros; ring.
  Qed.
  (** The bound of the model with side topics: of the two maps, with a variance of the latent
      features for that of the features, and of the documents, with the entropy of their topics. *)
  Theorem C225_side_reported P F X XTX A Y V R_A R_Y sigT isigT fv lfv det_A det_Y varcs : (0 < lfv)%R ->
    let ld := vsum K (fun k => ln (sigT k k)) in
    stm_bound K D T W n tiny P F X XTX A Y V R_A R_Y sigT isigT vocab fv lfv det_A det_Y means varcs
    = (map_part P isigT Y R_Y lfv ld (ln det_Y) - INR K * INR P * ln lfv
       + map_part F isigT (fun k f => A k f - vsum P (fun p => Y k p * V p f)) R_A lfv ld (ln det_A) - INR K * INR P * ln fv
       - INR K / 2 * vsum F (fun i => vsum F (fun f => XTX i f * R_A f i))
       + vsum D (fun d => normal_part K isigT ld (fun k => vsum F (fun f => X d f * A k f)) (means d) (varcs d)
           + vsum K (fun k => (ln (2 * PI) + 1 + ln (varcs d k)) / 2)
           + log_like K T vocab (W d) (means d) + excess K T (bohning K) vocab (W d) (means d)))%R.
  Proof.
    intros Hl. cbv zeta. unfold stm_bound. cbv zeta. rewrite word_part_is. unfold map_part.
    rewrite (map_is P isigT Y lfv), (map_is F isigT (fun k f => A k f - vsum P (fun p => Y k p * V p f))%R lfv).
    assert (E : ln_2_pi_e = (ln (2 * PI) + 1)%R).
    { unfold ln_2_pi_e. rewrite ln_mult, ln_exp; [reflexivity|pose proof PI_RGT_0; lra|apply exp_pos]. }
    rewrite E. unfold trace, ln_2_pi. set (ld := vsum K (fun k => ln (sigT k k))).
    rewrite (vsum_ext D (fun d => normal_part _ _ _ _ _ _ + _ + _ + _)%R
      (fun d => (INR K * (ln (2 * PI) + 1) / 2 - (INR K / 2 * ln (2 * PI) + ld / 2))
        - 5 / 10 * square K isigT (fun k => means d k - vsum F (fun f => X d f * A k f)) - 5 / 10 * vsum K (fun k => varcs d k * isigT k k)
        + 5 / 10 * vsum K (fun k => ln (varcs d k))
        + (log_like K T vocab (W d) (means d) + excess K T (bohning K) vocab (W d) (means d)))%R).
    - rewrite !vsum_plus, !vsum_minus, !vsum_scale, !vsum_const. field. lra.
    - intros d _. unfold normal_part. rewrite square_quad.
      rewrite (vsum_ext K (fun k => (ln (2 * PI) + 1 + ln (varcs d k)) / 2)%R (fun k => (ln (2 * PI) + 1) / 2 + / 2 * ln (varcs d k))%R) by (intros; field).
      rewrite vsum_plus, vsum_const, vsum_scale. field.
  Qed.
End report.
(** One topic, document and word. *)
Example C225_reported_case : exists b, ctm_bound 1 1 1 (fun _ _ => 1%R) (fun _ => 1%R) 1 (fun _ _ => 1%R) 1 (fun _ => 0%R) (fun _ _ => 1%R) (fun _ _ => 0%R) (fun _ _ => 1%R) = b /\
  corpus 1 1 (fun _ _ => 1%R) (fun _ => 1%R) /\ (1 <= vsum 1 (fun k => exp (0 - vmax 1 (fun _ => 0)) * 1))%R.
Proof.
  eexists. split; [apply C225_reported; [lia| |lra|]|split].
  - intros d Hd. unfold vsum. cbn [seq map rsum]. repeat split; try lra. intros; lra.
  - intros d t _ _. unfold vsum, vmax. cbn [seq map rsum fold_left]. rewrite Rminus_0_r, exp_0. lra.
  - intros d Hd. unfold vsum. cbn [seq map rsum]. repeat split; try lra. intros; lra.
  - unfold vsum, vmax. cbn [seq map rsum fold_left]. rewrite Rminus_0_r, exp_0. lra.
Qed.

Print Assumptions C225_reported.
Print Assumptions C225_side_reported.
