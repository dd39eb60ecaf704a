(** * Correlated topic models: C64, C131-C135. *)
From Coq Require Import List Reals ZArith Arith Bool Lra Lia.
From Verif Require Import Base RealModel RealProofs VbModel VbProofs DmrReal LinkModel LinkProps CtmModel CtmProofs.
Import ListNotations.
Open Scope nat_scope.

(** What is counted: word counts that are not negative, and the lengths of the
    documents. *)
Definition counts (D T : nat) (W : mat) (n : vec) : Prop :=
  (forall d t, d < D -> t < T -> (0 <= W d t)%R) /\ (forall d, d < D -> n d = vsum T (W d)).
(** A topic's distribution over words that leaves no word out. *)
Definition positive_dist (T : nat) (p : vec) : Prop := (forall t, t < T -> (0 < p t)%R) /\ vsum T p = 1%R.

(** ** C64 *)
Theorem C64_tokens_conserved K D T W n e v d : counts D T W n -> covers K T v -> d < D ->
  (forall k, k < K -> (0 < e d k)%R) ->
  (forall k, k < K -> (0 <= token_weights K T W e v d k)%R) /\ vsum K (token_weights K T W e v d) = n d.
Proof.
  intros [HW Hn] Hv Hd He. split.
  - intros k Hk. apply Rmult_le_pos; [left; apply He; exact Hk|]. apply vsum_nonneg. intros t Ht.
    apply Rmult_le_pos; [apply (quotient_nonneg K D T W HW); assumption|apply Hv; assumption].
  - rewrite (Hn d Hd). unfold token_weights.
    rewrite (vsum_ext K _ (fun k => vsum T (fun t => quotient K W e v d t * (e d k * v k t)))%R)
      by (intros; rewrite <- vsum_scale; apply vsum_ext; intros; ring).
    rewrite (vsum_swap K T (fun k t => quotient K W e v d t * (e d k * v k t))%R). apply vsum_ext. intros t Ht.
    rewrite vsum_scale. unfold quotient. pose proof (weighted_pos K T v Hv (e d) t He Ht). field. lra.
Qed.
Theorem C64_words_conserved K D T W n e v t : counts D T W n -> covers K T v -> t < T ->
  (forall d k, d < D -> k < K -> (0 < e d k)%R) ->
  vsum K (fun k => vocab_counts K D W e v k t) = vsum D (fun d => W d t).
Proof.
  intros [HW _] Hv Ht He. unfold vocab_counts.
  rewrite (vsum_ext K _ (fun k => vsum D (fun d => quotient K W e v d t * (e d k * v k t)))%R)
    by (intros; rewrite <- vsum_scale; apply vsum_ext; intros; ring).
  rewrite (vsum_swap K D (fun k d => quotient K W e v d t * (e d k * v k t))%R). apply vsum_ext. intros d Hd.
  rewrite vsum_scale. unfold quotient. pose proof (weighted_pos K T v Hv (e d) t (fun k => He d k Hd) Ht). field. lra.
Qed.

Lemma positive_covers K T v : 0 < K -> (forall k, k < K -> positive_dist T (v k)) -> covers K T v.
Proof.
  intros HK H. split; [intros k t Hk Ht; left; apply (H k Hk); exact Ht|]. intros t Ht. exists 0. split; [exact HK|apply (H 0 HK); exact Ht].
Qed.
Lemma iter_vocab K D T W n beta inv fast s s' : 0 < K -> 0 < T -> (0 < beta)%R -> counts D T W n -> covers K T (c_vocab s) ->
  train_iter K D T W n beta inv fast s = Ok s' -> forall k, k < K -> positive_dist T (c_vocab s' k).
Proof.
  intros HK HT Hb [HW _] Hv E k Hk. unfold train_iter in E.
  destruct (negb fast && (D <? 2)); [discriminate|]. destruct (D =? 1); [discriminate|]. inversion E; subst; clear E. cbn [c_vocab].
  assert (He : forall d k, d < D -> k < K -> (0 < exp_means K (c_means s) d k)%R) by (intros; apply exp_pos).
  split; [intros; apply vocab_update_pos; assumption|apply vocab_update_sum; assumption].
Qed.
Lemma loop_vocab K D T W n beta inv fast stop s' : 0 < K -> 0 < T -> (0 < beta)%R -> counts D T W n ->
  forall todo itr s, covers K T (c_vocab s) ->
  train_loop K D T W n beta inv fast stop itr todo s = Ok s' ->
  (todo = 0 /\ s' = s) \/ forall k, k < K -> positive_dist T (c_vocab s' k).
Proof.
  intros HK HT Hb HC. induction todo as [|todo IH]; intros itr s Hv E; cbn [train_loop] in E.
  - left. inversion E. split; reflexivity.
  - right. destruct (train_iter K D T W n beta inv fast s) as [s1|] eqn:E1; cbn [bind] in E; [|discriminate].
    pose proof (iter_vocab K D T W n beta inv fast s s1 HK HT Hb HC Hv E1) as P1.
    destruct (stop itr s1); [inversion E; subst; exact P1|].
    destruct (IH (S itr) s1 (positive_covers K T (c_vocab s1) HK P1) E) as [[_ ->]|H]; assumption.
Qed.
(** After any number of iterations, in either mode, wherever training stops. *)
Theorem C64_vocabulary K D T W n beta inv fast stop iterations s s' : 0 < K -> 0 < T -> (0 < beta)%R -> counts D T W n ->
  covers K T (c_vocab s) -> 0 < iterations -> ctm_train K D T W n beta inv fast stop iterations s = Ok s' ->
  forall k, k < K -> positive_dist T (c_vocab s' k).
Proof.
  intros HK HT Hb HC Hv Hi E. destruct (loop_vocab K D T W n beta inv fast stop s' HK HT Hb HC iterations 0 s Hv E) as [[H _]|H];
    [lia|exact H].
Qed.
(** ** C131: queries *)
Lemma query_step K D T W n inv isigT vocab prior varcs mu s d : 0 < K -> counts D T W n -> covers K T vocab -> d < D ->
  symm K isigT -> is_inverse K (lhs K n isigT d) (inv (lhs K n isigT d)) ->
  (forall k, k < K -> prior d k = vsum K (fun j => isigT k j * mu j)%R) ->
  solves K T vocab (W d) mu (s_means s d) isigT (s_means (query_iter K T W n inv false isigT vocab prior varcs s) d).
Proof.
  intros HK [HW Hn] Hv Hd HS HI Hp.
  exact (new_means_solve K D T W HK n inv isigT prior mu (s_means s) vocab d Hv Hd (Hn d Hd) HI Hp).
Qed.
(** Each iteration gains at least half the squared length of the step, measured by the
    precision and the curvature of the bound. *)
Theorem C131_iteration_gain K D T W n inv isigT vocab prior varcs mu s d : 0 < K -> counts D T W n -> covers K T vocab -> d < D ->
  symm K isigT -> is_inverse K (lhs K n isigT d) (inv (lhs K n isigT d)) ->
  (forall k, k < K -> prior d k = vsum K (fun j => isigT k j * mu j)%R) ->
  let m := s_means s d in
  let m' := s_means (query_iter K T W n inv false isigT vocab prior varcs s) d in
  (log_posterior K T vocab mu isigT (W d) m
   + quad K (fun i j => isigT i j + n d * bohning K i j) (fun k => m' k - m k) (fun k => m' k - m k) / 2
   <= log_posterior K T vocab mu isigT (W d) m')%R.
Proof.
  intros HK HC Hv Hd HS HI Hp m m'. destruct (HC) as [HW Hn]. rewrite (Hn d Hd).
  apply (posterior_gain K T vocab (W d) mu m isigT HK Hv (fun t Ht => HW d t Hd Ht) HS m').
  exact (query_step K D T W n inv isigT vocab prior varcs mu s d HK HC Hv Hd HS HI Hp).
Qed.
Lemma loop_grows K D T W n inv perp isigT vocab prior varcs mu : 0 < K -> counts D T W n -> covers K T vocab ->
  symm K isigT -> psd K isigT ->
  (forall d, d < D -> is_inverse K (lhs K n isigT d) (inv (lhs K n isigT d))) ->
  (forall d k, d < D -> k < K -> prior d k = vsum K (fun j => isigT k j * mu d j)%R) ->
  forall todo itr lastPerp s, s_same s = true -> q_means (s_arrays s) = s_means s ->
  let s' := query_loop K T W n inv false perp isigT vocab prior varcs itr todo lastPerp s in
  q_means (s_arrays s') = s_means s' /\ q_varcs (s_arrays s') = q_varcs (s_arrays s) /\
  forall d, d < D -> (log_posterior K T vocab (mu d) isigT (W d) (s_means s d) <= log_posterior K T vocab (mu d) isigT (W d) (s_means s' d))%R.
Proof.
  intros HK HC Hv HS HP HI Hp. induction todo as [|todo IH]; intros itr lp s Hs Hm; cbn [query_loop].
  - repeat split; [exact Hm|]. intros; right; reflexivity.
  - set (s1 := query_iter K T W n inv false isigT vocab prior varcs s).
    assert (Hs1 : s_same s1 = true) by (cbn; rewrite Hs; reflexivity).
    assert (Hm1 : q_means (s_arrays s1) = s_means s1) by (cbn; rewrite Hs; reflexivity).
    assert (Hv1 : q_varcs (s_arrays s1) = q_varcs (s_arrays s)) by reflexivity.
    assert (G : forall d, d < D -> (log_posterior K T vocab (mu d) isigT (W d) (s_means s d) <= log_posterior K T vocab (mu d) isigT (W d) (s_means s1 d))%R).
    { intros d Hd. destruct HC as [HW Hn].
      apply (posterior_grows K T vocab (W d) (mu d) (s_means s d) isigT HK Hv (fun t Ht => HW d t Hd Ht) HS _ HP).
      apply (query_step K D T W n inv isigT vocab prior varcs (mu d) s d HK (conj HW Hn) Hv Hd HS (HI d Hd)). intros k Hk. apply Hp; assumption. }
    destruct ((20 <? itr) && rltb (lp - perp (s_means s1)) 1).
    + repeat split; assumption.
    + destruct (IH (S itr) (perp (s_means s1)) s1 Hs1 Hm1) as [A [B C]]. repeat split; [exact A|rewrite <- Hv1; exact B|].
      intros d Hd. eapply Rle_trans; [apply G; exact Hd|apply C; exact Hd].
Qed.
(** The means that a query returns are, for every document, at least as probable given
    its words as those it started from. *)
Theorem C131_query_improves K D T W n inv perp lastPerp iterations mu sigT vocab q q' :
  0 < K -> counts D T W n -> covers K T vocab -> symm K (inv sigT) -> psd K (inv sigT) ->
  (forall d, d < D -> is_inverse K (lhs K n (inv sigT) d) (inv (lhs K n (inv sigT) d))) ->
  ctm_query K D T W n inv false perp lastPerp iterations mu sigT vocab q = Ok q' ->
  forall d, d < D -> (log_posterior K T vocab mu (inv sigT) (W d) (q_means q d) <= log_posterior K T vocab mu (inv sigT) (W d) (q_means q' d))%R.
Proof.
  intros HK HC Hv HS HP HI E d Hd. unfold ctm_query in E. destruct (D =? 1); [discriminate|]. inversion E; subst; clear E.
  match goal with |- context [query_loop K T W n inv false perp ?i ?v ?p ?va ?it ?td ?lp ?s] =>
    destruct (loop_grows K D T W n inv perp i v p va (fun _ => mu) HK HC Hv HS HP HI (fun _ _ _ _ => eq_refl) td it lp s eq_refl eq_refl) as [A [_ G]] end.
  rewrite A. apply (G d Hd).
Qed.
Theorem C131_stm_query_improves K D T W n inv perp lastPerp iterations F X A sigT vocab q q' :
  0 < K -> counts D T W n -> covers K T vocab -> symm K (inv sigT) -> psd K (inv sigT) ->
  (forall d, d < D -> is_inverse K (lhs K n (inv sigT) d) (inv (lhs K n (inv sigT) d))) ->
  stm_query K D T W n inv perp lastPerp iterations F X A sigT vocab q = Ok q' ->
  forall d, d < D -> let mu := fun k => vsum F (fun f => X d f * A k f)%R in
  (log_posterior K T vocab mu (inv sigT) (W d) (q_means q d) <= log_posterior K T vocab mu (inv sigT) (W d) (q_means q' d))%R.
Proof.
  intros HK HC Hv HS HP HI E d Hd mu. unfold stm_query in E. destruct (D =? 1); [discriminate|]. inversion E; subst; clear E.
  assert (Hpr : forall d k, d < D -> k < K -> stm_prior K (inv sigT) (stm_mean F X A) d k = vsum K (fun j => inv sigT k j * stm_mean F X A d j)%R).
  { intros d' k _ Hk. apply vsum_ext. intros j Hj. rewrite (HS j k Hj Hk). ring. }
  cbn [q_means].
  match goal with |- context [query_loop K T W n inv false perp ?i ?v ?p ?va ?it ?td ?lp ?s] =>
    destruct (loop_grows K D T W n inv perp i v p va (stm_mean F X A) HK HC Hv HS HP HI Hpr td it lp s eq_refl eq_refl) as [B [_ G]] end.
  rewrite B. apply (G d Hd).
Qed.

(** The derivative of the posterior along a direction [h]. *)
Lemma derivable_exps K (a m h : vec) u :
  derivable_pt_lim (fun u => vsum K (fun k => exp (m k + u * h k) * a k))%R u (vsum K (fun k => exp (m k + u * h k) * a k * h k))%R.
Proof.
  apply derivable_vsum. intros k _.
  apply (derivable_as (mult_real_fct (a k) (fun u => exp (m k + u * h k)))%R _ u (a k * (exp (m k + u * h k) * (0 + (1 * h k + u * 0))))%R).
  - apply derivable_pt_lim_scal. apply (derivable_pt_lim_comp (fun u => m k + u * h k)%R exp); [|apply derivable_pt_lim_exp].
    apply (derivable_pt_lim_plus (fun _ => m k) (fun u => u * h k)%R); [apply derivable_pt_lim_const|].
    apply (derivable_pt_lim_mult (fun u => u) (fun _ => h k)); [apply derivable_pt_lim_id|apply derivable_pt_lim_const].
  - intros y. unfold mult_real_fct. ring.
  - ring.
Qed.
Theorem C131_posterior_gradient K T v mu P w m h : 0 < K -> covers K T v -> symm K P ->
  derivable_pt_lim (fun u => log_posterior K T v mu P w (fun k => m k + u * h k))%R 0
    (vsum K (fun k => h k * (expected K T v w m k - vsum T w * softmax K m k - vsum K (fun j => P k j * (m j - mu j)))))%R.
Proof.
  intros HK Hv HP.
  set (Z := vsum K (fun k => exp (m k))).
  assert (HZ : (0 < Z)%R) by (apply exps_pos; exact HK).
  assert (E0 : forall a : vec, vsum K (fun k => exp (m k + 0 * h k) * a k)%R = vsum K (fun k => exp (m k) * a k)%R).
  { intros a. apply vsum_ext. intros. rewrite Rmult_0_l, Rplus_0_r. reflexivity. }
  assert (DL : forall a : vec, (0 < vsum K (fun k => exp (m k) * a k))%R ->
     derivable_pt_lim (fun u => ln (vsum K (fun k => exp (m k + u * h k) * a k)))%R 0
       (vsum K (fun k => exp (m k) * a k * h k) / vsum K (fun k => exp (m k) * a k))%R).
  { intros a Ha. pose proof (derivable_exps K a m h 0) as H1.
    pose proof (derivable_pt_lim_comp _ ln 0 _ (/ vsum K (fun k => exp (m k + 0 * h k) * a k))%R H1) as H2.
    refine (derivable_as _ _ _ _ _ (H2 _) (fun _ => eq_refl) _).
    - apply derivable_pt_lim_ln. rewrite E0. exact Ha.
    - rewrite E0. rewrite (vsum_ext K (fun k => exp (m k + 0 * h k) * a k * h k)%R (fun k => exp (m k) * a k * h k)%R)
        by (intros; rewrite Rmult_0_l, Rplus_0_r; reflexivity). unfold Rdiv. ring. }
  assert (D1 : derivable_pt_lim (fun u => vsum T (fun t => w t * ln (mass K v (fun k => m k + u * h k) t)))%R 0
                 (vsum T (fun t => w t * (vsum K (fun k => exp (m k) * v k t * h k) / mass K v m t)))%R).
  { apply derivable_vsum. intros t Ht. 
    refine (derivable_pt_lim_scal (fun u => ln (mass K v (fun k => m k + u * h k) t))%R (w t) 0 _ (DL (fun k => v k t) _)).
    exact (mass_pos K T v Hv m t Ht). }
  pose proof (DL (fun _ => 1%R)) as D2.
  assert (EZ : vsum K (fun k => exp (m k) * 1)%R = Z) by (apply vsum_ext; intros; ring).
  cbv beta in D2. rewrite EZ in D2. specialize (D2 HZ). apply (derivable_pt_lim_scal _ (vsum T w)) in D2.
  set (q0 := quad K P (fun k => m k - mu k)%R (fun k => m k - mu k)%R).
  set (q1 := quad K P h (fun k => m k - mu k)%R). set (q2 := quad K P h h).
  assert (D3 : derivable_pt_lim (fun u => q0 / 2 + u * q1 + u * u * (q2 / 2))%R 0 q1).
  { pose proof (derivable_pt_lim_plus _ _ 0 _ _ (derivable_pt_lim_plus _ _ 0 _ _ (derivable_pt_lim_const (q0 / 2) 0)
        (derivable_pt_lim_mult _ _ 0 _ _ (derivable_pt_lim_id 0) (derivable_pt_lim_const q1 0)))
      (derivable_pt_lim_mult _ _ 0 _ _ (derivable_pt_lim_mult _ _ 0 _ _ (derivable_pt_lim_id 0) (derivable_pt_lim_id 0)) (derivable_pt_lim_const (q2 / 2) 0))) as H.
    apply (derivable_as _ _ _ _ _ H); unfold plus_fct, mult_fct, fct_cte, id; [reflexivity|ring]. }
  pose proof (derivable_pt_lim_minus _ _ _ _ _ (derivable_pt_lim_minus _ _ _ _ _ D1 D2) D3) as H.
  apply (derivable_as _ _ _ _ _ H).
  - intros u. unfold minus_fct, mult_real_fct, log_posterior. rewrite (like_split K T v w HK Hv).
    rewrite (vsum_ext K (fun k => exp (m k + u * h k) * 1)%R (fun k => exp (m k + u * h k))) by (intros; ring).
    rewrite (quad_ext K P P (fun k => m k + u * h k - mu k)%R (fun k => m k + u * h k - mu k)%R (fun k => (m k - mu k) + u * h k)%R (fun k => (m k - mu k) + u * h k)%R);
      [|reflexivity|intros; ring|intros; ring].
    rewrite (quad_square K P (fun k => m k - mu k)%R (fun k => u * h k)%R HP).
    assert (S1 : quad K P (fun k => u * h k)%R (fun k => m k - mu k)%R = (u * q1)%R).
    { unfold q1. rewrite !quad_mat, <- vsum_scale. apply vsum_ext. intros; ring. }
    assert (S2 : quad K P (fun k => u * h k)%R (fun k => u * h k)%R = (u * u * q2)%R).
    { unfold q2. rewrite !quad_mat, <- vsum_scale. apply vsum_ext. intros i _.
      rewrite (vsum_ext K _ (fun j => u * (P i j * h j))%R) by (intros; ring). rewrite vsum_scale. ring. }
    rewrite S1, S2. fold q0. field.
  - rewrite (vsum_ext K (fun k => h k * _)%R (fun k => expected K T v w m k * h k - vsum T w * (softmax K m k * h k) - h k * vsum K (fun j => P k j * (m j - mu j)))%R)
      by (intros; ring).
    rewrite !vsum_minus, vsum_scale. f_equal; [f_equal|].
    + unfold expected.
      rewrite (vsum_ext K _ (fun k => vsum T (fun t => w t * (exp (m k) * v k t / mass K v m t) * h k))%R) by (intros; rewrite vsum_scale_r; reflexivity).
      rewrite (vsum_swap K T (fun k t => w t * (exp (m k) * v k t / mass K v m t) * h k)%R). apply vsum_ext. intros t _.
      unfold Rdiv. rewrite <- vsum_scale_r, <- vsum_scale. apply vsum_ext. intros. ring.
    + f_equal. unfold softmax, Rdiv. rewrite <- vsum_scale_r. apply vsum_ext. intros. fold Z. ring.
    + unfold q1. rewrite quad_mat. reflexivity.
Qed.
(** Where an iteration changes nothing, the posterior is flat. *)
Theorem C131_fixed_points_are_stationary K D T W n inv isigT vocab prior varcs mu s d h : 0 < K -> counts D T W n -> covers K T vocab -> d < D ->
  symm K isigT -> is_inverse K (lhs K n isigT d) (inv (lhs K n isigT d)) ->
  (forall k, k < K -> prior d k = vsum K (fun j => isigT k j * mu j)%R) ->
  (forall k, k < K -> s_means (query_iter K T W n inv false isigT vocab prior varcs s) d k = s_means s d k) ->
  derivable_pt_lim (fun u => log_posterior K T vocab mu isigT (W d) (fun k => s_means s d k + u * h k))%R 0%R 0%R.
Proof.
  intros HK HC Hv Hd HS HI Hp Hfix.
  pose proof (query_step K D T W n inv isigT vocab prior varcs mu s d HK HC Hv Hd HS HI Hp) as Hsol.
  refine (derivable_as _ _ _ _ _ (C131_posterior_gradient K T vocab mu isigT (W d) (s_means s d) h HK Hv HS) (fun _ => eq_refl) _).
  rewrite (vsum_ext K _ (fun _ => 0%R)); [apply vsum_zero|]. intros k Hk.
  specialize (Hsol k Hk). set (m := s_means s d) in *.
  rewrite (vsum_ext K _ (fun j => isigT k j * m j + vsum T (W d) * (m j * bohning K j k))%R) in Hsol
    by (intros j Hj; rewrite (Hfix j Hj), (bohning_symm K k j Hk Hj); fold m; ring).
  rewrite vsum_plus, vsum_scale in Hsol.
  rewrite (vsum_ext K (fun j => isigT k j * (m j - mu j))%R (fun j => isigT k j * m j - isigT k j * mu j)%R) by (intros; ring).
  rewrite vsum_minus.
  replace (expected K T vocab (W d) m k - vsum T (W d) * softmax K m k - (vsum K (fun j => isigT k j * m j) - vsum K (fun j => isigT k j * mu j)))%R with 0%R by lra.
  ring.
Qed.

(** ** C132: training *)
(** The logarithm of the joint density of words, topic means and vocabularies, up to a
    constant: the means have a normal prior with identity covariance, and every topic's
    distribution a Dirichlet prior with parameter beta + 1. *)
Definition joint (K D T : nat) (W : mat) (beta : R) (s : ctm) : R :=
  (vsum D (fun d => log_posterior K T (c_vocab s) (c_mean s) eye (W d) (c_means s d))
   + beta * vsum K (fun k => vsum T (fun t => ln (c_vocab s k t))))%R.

Lemma quad_eye K x y : quad K eye x y = vsum K (fun k => x k * y k)%R.
Proof. rewrite quad_mat. apply vsum_ext. intros k Hk. rewrite (vsum_eye K k y Hk). reflexivity. Qed.
Lemma eye_symm K : symm K eye.
Proof. intros i j _ _. unfold eye. rewrite Nat.eqb_sym. reflexivity. Qed.
Lemma eye_psd K : psd K eye.
Proof. intros x. rewrite quad_eye. apply vsum_nonneg. intros. apply Rle_0_sqr. Qed.
(** The mean of points is nearest to them. *)
Lemma mean_nearest D (x : vec) c : 0 < D -> (vsum D (fun d => (x d - vsum D x / INR D) * (x d - vsum D x / INR D)) <= vsum D (fun d => (x d - c) * (x d - c)))%R.
Proof.
  intros HD. assert (HN : (0 < INR D)%R) by (apply lt_0_INR; exact HD). rewrite !shift_square.
  pose proof (Rle_0_sqr (vsum D x - INR D * c)) as H. unfold Rsqr in H.
  apply (Rmult_le_reg_l (INR D)); [exact HN|].
  replace (INR D * (vsum D (fun k => x k * x k) - 2 * (vsum D x / INR D) * vsum D x + INR D * (vsum D x / INR D * (vsum D x / INR D))))%R
    with (INR D * vsum D (fun k => x k * x k) - vsum D x * vsum D x)%R by (field; lra). nra.
Qed.
Lemma log_posterior_eye K T v mu P w m : (forall i j, i < K -> j < K -> P i j = eye i j) -> log_posterior K T v mu P w m = log_posterior K T v mu eye w m.
Proof. intros H. unfold log_posterior. do 2 f_equal. apply quad_ext; [exact H|reflexivity|reflexivity]. Qed.

Lemma inverse_of_eye K N : is_inverse K eye N -> forall i j, i < K -> j < K -> N i j = eye i j.
Proof. intros H i j Hi Hj. rewrite <- (H i j Hi Hj). rewrite (vsum_eye K i (fun l => N l j) Hi). reflexivity. Qed.

Lemma iter_joint K D T W n beta inv s s' : 0 < K -> 0 < T -> (0 < beta)%R -> counts D T W n ->
  (forall k, k < K -> positive_dist T (c_vocab s k)) -> is_inverse K eye (inv eye) ->
  (forall d, d < D -> is_inverse K (lhs K n (inv eye) d) (inv (lhs K n (inv eye) d))) ->
  train_iter K D T W n beta inv false s = Ok s' -> (joint K D T W beta s <= joint K D T W beta s')%R.
Proof.
  intros HK HT Hb HC HV HI0 HI E. pose proof (iter_vocab K D T W n beta inv false s s' HK HT Hb HC (positive_covers K T _ HK HV) E) as HV'.
  unfold train_iter in E. cbn [negb andb] in E.
  destruct (Nat.ltb_spec D 2); [discriminate|]. destruct (Nat.eqb_spec D 1); [discriminate|]. inversion E; subst; clear E.
  cbn [c_vocab] in HV'. unfold joint. cbn [c_vocab c_mean c_means].
  set (mu' := col_mean D (c_means s)) in *. set (v' := vocab_update K D T W beta (exp_means K (c_means s)) (c_vocab s)) in *.
  set (v := c_vocab s) in *. set (M := c_means s) in *. set (I' := inv eye) in *.
  pose proof (inverse_of_eye K I' HI0) as EI. destruct HC as [HW Hn].
  assert (S1 : (vsum D (fun d => log_posterior K T v (c_mean s) eye (W d) (M d)) <= vsum D (fun d => log_posterior K T v mu' eye (W d) (M d)))%R).
  { unfold log_posterior. rewrite !vsum_minus. unfold Rdiv. rewrite !vsum_scale_r.
    assert (vsum D (fun d => quad K eye (fun k => M d k - mu' k) (fun k => M d k - mu' k))
            <= vsum D (fun d => quad K eye (fun k => M d k - c_mean s k) (fun k => M d k - c_mean s k)))%R; [|lra].
    rewrite (vsum_ext D _ (fun d => vsum K (fun k => (M d k - mu' k) * (M d k - mu' k)))%R) by (intros; rewrite quad_eye; reflexivity).
    rewrite (vsum_ext D (fun d => quad K eye (fun k => M d k - c_mean s k)%R (fun k => M d k - c_mean s k)%R) (fun d => vsum K (fun k => (M d k - c_mean s k) * (M d k - c_mean s k)))%R)
      by (intros; rewrite quad_eye; reflexivity).
    rewrite (vsum_swap D K (fun d k => (M d k - mu' k) * (M d k - mu' k))%R), (vsum_swap D K (fun d k => (M d k - c_mean s k) * (M d k - c_mean s k))%R).
    apply vsum_le. intros k _. apply (mean_nearest D (fun d => M d k) (c_mean s k)). lia. }
  assert (S2 : (vsum D (fun d => log_posterior K T v mu' eye (W d) (M d)) + beta * vsum K (fun k => vsum T (fun t => ln (v k t)))
     <= vsum D (fun d => log_posterior K T v' mu' eye (W d) (M d)) + beta * vsum K (fun k => vsum T (fun t => ln (v' k t))))%R).
  { unfold log_posterior. rewrite !vsum_minus.
    pose proof (vocab_step K D T W HK HW M v beta Hb HT (fun k t Hk Ht => proj1 (HV k Hk) t Ht) (fun k Hk => proj2 (HV k Hk))) as G.
    cbv zeta in G. fold v' in G. lra. }
  assert (S3 : (vsum D (fun d => log_posterior K T v' mu' eye (W d) (M d))
     <= vsum D (fun d => log_posterior K T v' mu' eye (W d) (new_means K n inv I' (rhs K n (ctm_prior K I' mu') (token_weights K T W (exp_means K M) v') M) d)))%R).
  { apply vsum_le. intros d Hd. rewrite <- !(log_posterior_eye K T v' mu' I' _ _ EI).
    apply (posterior_grows K T v' (W d) mu' (M d) I' HK (positive_covers K T v' HK HV') (fun t Ht => HW d t Hd Ht)).
    - intros i j Hi Hj. rewrite !EI by assumption. apply (eye_symm K); assumption.
    - intros x. rewrite (quad_ext K I' eye x x x x EI (fun _ _ => eq_refl) (fun _ _ => eq_refl)). apply eye_psd.
    - apply (new_means_solve K D T W HK n inv I' _ mu' M v' d (positive_covers K T v' HK HV') Hd (Hn d Hd) (HI d Hd)). reflexivity. }
  lra.
Qed.
Theorem C132_training_improves K D T W n beta inv stop iterations s s' : 0 < K -> 0 < T -> (0 < beta)%R -> counts D T W n ->
  (forall k, k < K -> positive_dist T (c_vocab s k)) -> is_inverse K eye (inv eye) ->
  (forall d, d < D -> is_inverse K (lhs K n (inv eye) d) (inv (lhs K n (inv eye) d))) ->
  ctm_train K D T W n beta inv false stop iterations s = Ok s' -> (joint K D T W beta s <= joint K D T W beta s')%R.
Proof.
  intros HK HT Hb HC HV HI0 HI. unfold ctm_train. generalize 0 as itr. revert s HV.
  induction iterations as [|todo IH]; intros s HV itr E; cbn [train_loop] in E.
  - inversion E. right. reflexivity.
  - destruct (train_iter K D T W n beta inv false s) as [s1|] eqn:E1; cbn [bind] in E; [|discriminate].
    pose proof (iter_joint K D T W n beta inv s s1 HK HT Hb HC HV HI0 HI E1) as J1.
    destruct (stop itr s1); [inversion E; subst; exact J1|].
    eapply Rle_trans; [exact J1|]. apply (IH s1) with (itr := S itr); [|exact E].
    exact (iter_vocab K D T W n beta inv false s s1 HK HT Hb HC (positive_covers K T _ HK HV) E1).
Qed.
Theorem C132_training_succeeds K D T W n beta inv fast stop iterations s : D <> 1 -> (fast = true \/ 2 <= D) ->
  exists s', ctm_train K D T W n beta inv fast stop iterations s = Ok s'.
Proof.
  intros H1 H2. unfold ctm_train. generalize 0 as itr. revert s. induction iterations as [|todo IH]; intros s itr; cbn [train_loop].
  - eexists. reflexivity.
  - unfold train_iter at 1. replace (negb fast && (D <? 2)) with false.
    2:{ destruct H2 as [->|H2]; [reflexivity|]. destruct (Nat.ltb_spec D 2); [lia|]. destruct fast; reflexivity. }
    destruct (Nat.eqb_spec D 1); [contradiction|]. cbn [bind]. destruct (stop itr _); [eexists; reflexivity|apply IH].
Qed.

(** ** C133: the covariance *)
Theorem C133_covariance_is_identity K D T W n beta inv fast stop iterations s s' : 0 < iterations ->
  ctm_train K D T W n beta inv fast stop iterations s = Ok s' -> c_sigT s' = eye.
Proof.
  unfold ctm_train. intros Hi. generalize 0 as itr. revert s Hi. induction iterations as [|todo IH]; intros s Hi itr E; [lia|].
  cbn [train_loop] in E. destruct (train_iter K D T W n beta inv fast s) as [s1|] eqn:E1; cbn [bind] in E; [|discriminate].
  assert (S1 : c_sigT s1 = eye).
  { unfold train_iter in E1. destruct (negb fast && (D <? 2)); [discriminate|]. destruct (D =? 1); [discriminate|]. inversion E1. reflexivity. }
  destruct (stop itr s1); [inversion E; subst; exact S1|]. destruct todo; [cbn [train_loop] in E; inversion E; subst; exact S1|].
  apply (IH s1 ltac:(lia) (S itr)). exact E.
Qed.

(** ** Two topics, two documents, two words *)
Definition inv2 (M : mat) : mat := fun i j =>
  let det := (M 0%nat 0%nat * M 1%nat 1%nat - M 0%nat 1%nat * M 1%nat 0%nat)%R in
  match i, j with 0, 0 => (M 1%nat 1%nat / det)%R | 0, 1 => (- M 0%nat 1%nat / det)%R | 1, 0 => (- M 1%nat 0%nat / det)%R | _, _ => (M 0%nat 0%nat / det)%R end.
Lemma inv2_ok M : (M 0%nat 0%nat * M 1%nat 1%nat - M 0%nat 1%nat * M 1%nat 0%nat <> 0)%R -> is_inverse 2 M (inv2 M).
Proof.
  intros H i j Hi Hj. unfold vsum. cbn [seq map rsum].
  destruct i as [|[|]]; [| |lia]; (destruct j as [|[|]]; [| |lia]); unfold inv2, eye; cbn [Nat.eqb]; field; exact H.
Qed.
Lemma inv2_eye : forall i j, i < 2 -> j < 2 -> inv2 eye i j = eye i j.
Proof.
  intros i j Hi Hj. destruct i as [|[|]]; [| |lia]; (destruct j as [|[|]]; [| |lia]); unfold inv2, eye; cbn [Nat.eqb]; field.
Qed.
Lemma inv2_lhs n d : (0 <= n d)%R -> is_inverse 2 (lhs 2 n (inv2 eye) d) (inv2 (lhs 2 n (inv2 eye) d)).
Proof.
  intros Hn. apply inv2_ok. unfold lhs, bohning. rewrite !inv2_eye by lia. unfold eye. cbn [Nat.eqb INR].
  apply Rgt_not_eq. match goal with |- (?a > 0)%R => replace a with (1 + 2 / 3 * n d + n d * n d / 12)%R by field end. nra.
Qed.
Definition two_words : mat := fun d t => if d =? t then 3%R else 1%R.
Definition four : vec := fun _ => 4%R.
Definition two_topics : mat := fun k t => if k =? t then (2 / 3)%R else (1 / 3)%R.
Lemma two_counts : counts 2 2 two_words four.
Proof.
  split.
  - intros d t _ _. unfold two_words. destruct (d =? t); lra.
  - intros d Hd. unfold vsum, four, two_words. destruct d as [|[|]]; [| |lia]; cbn [seq map rsum Nat.eqb]; lra.
Qed.
Lemma two_dists : forall k, k < 2 -> positive_dist 2 (two_topics k).
Proof.
  intros k Hk. split; [intros t _; unfold two_topics; destruct (k =? t); lra|].
  unfold vsum, two_topics. destruct k as [|[|]]; [| |lia]; cbn [seq map rsum Nat.eqb]; lra.
Qed.
Definition two_means : mat := fun d k => if (d =? 1) && (k =? 0) then 1%R else 0%R.
Definition two_start : ctm :=
  {| c_mean := fun _ => (1 / 2)%R; c_sigT := eye; c_vocab := two_topics; c_means := two_means;
     c_exp := fun _ _ => 1%R; c_varcs := fun _ _ => 1%R |}.

Example C64_example : vsum 2 (token_weights 2 2 two_words (exp_means 2 two_means) two_topics 0) = 4%R.
Proof.
  apply (C64_tokens_conserved 2 2 2 two_words four (exp_means 2 two_means) two_topics 0 two_counts (positive_covers 2 2 _ ltac:(lia) two_dists) ltac:(lia)).
  intros; apply exp_pos.
Qed.
Example C64_words_example : vsum 2 (fun k => vocab_counts 2 2 two_words (exp_means 2 two_means) two_topics k 1) = (1 + 3)%R.
Proof.
  rewrite (C64_words_conserved 2 2 2 two_words four (exp_means 2 two_means) two_topics 1 two_counts (positive_covers 2 2 _ ltac:(lia) two_dists) ltac:(lia)).
  - unfold vsum, two_words. cbn [seq map rsum Nat.eqb]. ring.
  - intros; apply exp_pos.
Qed.
Example C132_example : exists s', ctm_train 2 2 2 two_words four 1 inv2 false (fun _ _ => false) 7 two_start = Ok s' /\
  (joint 2 2 2 two_words 1 two_start <= joint 2 2 2 two_words 1 s')%R /\ (forall k, k < 2 -> positive_dist 2 (c_vocab s' k)) /\
  c_sigT s' = eye.
Proof.
  destruct (C132_training_succeeds 2 2 2 two_words four 1 inv2 false (fun _ _ => false) 7 two_start) as [s' E]; [lia|right; lia|].
  exists s'. split; [exact E|split; [|split]].
  - apply (C132_training_improves 2 2 2 two_words four 1 inv2 (fun _ _ => false) 7 two_start s'); try exact E; try lia; try lra.
    + exact two_counts.
    + exact two_dists.
    + apply inv2_ok. unfold eye. cbn [Nat.eqb]. lra.
    + intros d _. apply inv2_lhs. unfold four. lra.
  - apply (C64_vocabulary 2 2 2 two_words four 1 inv2 false (fun _ _ => false) 7 two_start s'); try exact E; try lia; try lra.
    + exact two_counts.
    + exact (positive_covers 2 2 _ ltac:(lia) two_dists).
  - exact (C133_covariance_is_identity 2 2 2 two_words four 1 inv2 false (fun _ _ => false) 7 two_start s' ltac:(lia) E).
Qed.
(** The covariance that is computed and thrown away is another one. *)
Theorem C133_learns_covariance_refuted : exists K D T W n beta inv s s', counts D T W n /\ covers K T (c_vocab s) /\
  ctm_train K D T W n beta inv false (fun _ _ => false) 1 s = Ok s' /\
  c_sigT s' 0 0 <> cov_estimate D (c_means s) (c_varcs s) 0 0.
Proof.
  destruct (C132_training_succeeds 2 2 2 two_words four 1 inv2 false (fun _ _ => false) 1 two_start) as [s' E]; [lia|right; lia|].
  exists 2, 2, 2, two_words, four, 1%R, inv2, two_start, s'. repeat split; try exact E; try apply two_counts;
    try (apply (positive_covers 2 2 _ ltac:(lia) two_dists)).
  rewrite (C133_covariance_is_identity 2 2 2 two_words four 1 inv2 false (fun _ _ => false) 1 two_start s' ltac:(lia) E).
  unfold cov_estimate, col_mean, eye, two_start, vsum. cbn [c_means c_varcs seq map rsum Nat.eqb INR]. unfold two_means. cbn [Nat.eqb andb]. lra.
Qed.

(** ** C134: what a query returns *)
(** Without fastButInaccurate the returned means are those of the last iteration. *)
Fixpoint means_after (K T : nat) (W : mat) (n : vec) (inv : mat -> mat) (isigT vocab prior : mat) (i : nat) (m : mat) : mat :=
  match i with
  | 0 => m
  | S i => let m := means_after K T W n inv isigT vocab prior i m in
           new_means K n inv isigT (rhs K n prior (token_weights K T W (exp_means K m) vocab) m)
  end.
Lemma loop_means K T W n inv perp isigT vocab prior varcs : forall todo itr lp s, s_same s = true -> q_means (s_arrays s) = s_means s ->
  exists i, i <= todo /\ (todo <= 21 - itr -> i = todo) /\
    q_means (s_arrays (query_loop K T W n inv false perp isigT vocab prior varcs itr todo lp s)) = means_after K T W n inv isigT vocab prior i (s_means s).
Proof.
  assert (R : forall i m, means_after K T W n inv isigT vocab prior (S i) m =
    means_after K T W n inv isigT vocab prior i (new_means K n inv isigT (rhs K n prior (token_weights K T W (exp_means K m) vocab) m))).
  { induction i as [|i IH]; intros m; [reflexivity|]. cbn [means_after] in *. rewrite IH. reflexivity. }
  induction todo as [|todo IH]; intros itr lp s Hs Hm; cbn [query_loop].
  - exists 0. repeat split; [lia|]. exact Hm.
  - set (s1 := query_iter K T W n inv false isigT vocab prior varcs s).
    assert (Hs1 : s_same s1 = true) by (cbn; rewrite Hs; reflexivity).
    assert (Hm1 : q_means (s_arrays s1) = s_means s1) by (cbn; rewrite Hs; reflexivity).
    destruct ((20 <? itr) && rltb (lp - perp (s_means s1)) 1) eqn:Est.
    + exists 1. split; [lia|]. split; [|rewrite Hm1; reflexivity].
      apply andb_prop in Est. destruct Est as [H _]. apply Nat.ltb_lt in H. lia.
    + destruct (IH (S itr) (perp (s_means s1)) s1 Hs1 Hm1) as [i [A [B C]]]. exists (S i). split; [lia|]. split; [lia|].
      rewrite C, R. reflexivity.
Qed.
Theorem C134_query_returns_means K D T W n inv perp lastPerp iterations mu sigT vocab q q' :
  ctm_query K D T W n inv false perp lastPerp iterations mu sigT vocab q = Ok q' ->
  exists i, i <= iterations /\ (iterations <= 21 -> i = iterations) /\
    q_means q' = means_after K T W n inv (inv sigT) vocab (ctm_prior K (inv sigT) mu) i (q_means q).
Proof.
  intros E. unfold ctm_query in E. destruct (D =? 1); [discriminate|]. inversion E; subst; clear E.
  match goal with |- context [query_loop K T W n inv false perp ?i ?v ?p ?va ?it ?td ?lp ?s] =>
    destruct (loop_means K T W n inv perp i v p va td it lp s eq_refl eq_refl) as [j [A [B C]]] end.
  exists j. split; [exact A|]. split; [exact B|]. rewrite C. reflexivity.
Qed.
(** With it they are the softmax of the means passed in, whatever the words are. *)
Lemma loop_fast K T W n inv perp isigT vocab prior varcs : forall todo itr lp s, s_same s = false ->
  q_means (s_arrays (query_loop K T W n inv true perp isigT vocab prior varcs itr todo lp s)) = q_means (s_arrays s).
Proof.
  induction todo as [|todo IH]; intros itr lp s Hs; cbn [query_loop]; [reflexivity|].
  set (s1 := query_iter K T W n inv true isigT vocab prior varcs s).
  assert (Hs1 : s_same s1 = false) by (cbn; rewrite Hs; reflexivity).
  assert (Hm1 : q_means (s_arrays s1) = q_means (s_arrays s)) by (cbn; rewrite Hs; reflexivity).
  destruct ((20 <? itr) && rltb (lp - perp (s_means s1)) 1); [exact Hm1|]. rewrite IH by exact Hs1. exact Hm1.
Qed.
Lemma loop_fast_first K T W n inv perp isigT vocab prior varcs todo itr lp s : s_same s = true ->
  q_means (s_arrays (query_loop K T W n inv true perp isigT vocab prior varcs itr (S todo) lp s)) = fun d => vsoftmax K (s_means s d).
Proof.
  intros Hs. cbn [query_loop]. set (s1 := query_iter K T W n inv true isigT vocab prior varcs s).
  assert (Hs1 : s_same s1 = false) by (cbn; rewrite Hs; reflexivity).
  assert (Hm1 : q_means (s_arrays s1) = fun d => vsoftmax K (s_means s d)) by (cbn; rewrite Hs; reflexivity).
  destruct ((20 <? itr) && rltb (lp - perp (s_means s1)) 1); [exact Hm1|]. rewrite loop_fast by exact Hs1. exact Hm1.
Qed.
Theorem C134_fast_query_returns_softmax K D T W n inv perp lastPerp iterations mu sigT vocab q q' : 0 < K -> 0 < iterations ->
  ctm_query K D T W n inv true perp lastPerp iterations mu sigT vocab q = Ok q' ->
  forall d k, q_means q' d k = softmax K (q_means q d) k.
Proof.
  intros HK Hi E d k. unfold ctm_query in E. destruct (D =? 1); [discriminate|].
  inversion E; subst; clear E. destruct iterations as [|i]; [lia|]. rewrite loop_fast_first by reflexivity. apply vsoftmax_is. exact HK.
Qed.
Theorem C134_query_keeps_variances K D T W n inv fast perp lastPerp iterations mu sigT vocab q q' :
  ctm_query K D T W n inv fast perp lastPerp iterations mu sigT vocab q = Ok q' -> q_varcs q' = q_varcs q.
Proof.
  intros E. unfold ctm_query in E. destruct (D =? 1); [discriminate|]. inversion E; subst; clear E.
  assert (G : forall isigT vocab prior varcs todo itr lp s,
    q_varcs (s_arrays (query_loop K T W n inv fast perp isigT vocab prior varcs itr todo lp s)) = q_varcs (s_arrays s)).
  { intros isigT vocab' prior varcs. induction todo as [|todo IH]; intros itr lp s; cbn [query_loop]; [reflexivity|].
    destruct (_ && _); [reflexivity|]. rewrite IH. reflexivity. }
  rewrite G. reflexivity.
Qed.
(** So the means of a fast query can be worse than those it started from. *)
Theorem C134_fast_query_refuted : exists K D T W n inv perp lastPerp mu sigT vocab q q', counts D T W n /\ covers K T vocab /\
  is_inverse K sigT (inv sigT) /\ ctm_query K D T W n inv true perp lastPerp 50 mu sigT vocab q = Ok q' /\
  forall d, d < D -> (log_posterior K T vocab mu (inv sigT) (W d) (q_means q' d) < log_posterior K T vocab mu (inv sigT) (W d) (q_means q d))%R.
Proof.
  set (q := {| q_means := fun _ k => if k =? 0 then 2%R else 0%R; q_exp := fun _ _ => 1%R; q_varcs := fun _ _ => 1%R |}).
  set (W := fun _ _ : nat => 1%R). set (vocab := fun _ _ : nat => 1%R). set (mu := fun k : nat => if k =? 0 then 2%R else 0%R).
  assert (Q : exists q', ctm_query 2 2 1 W (fun _ => 1%R) inv2 true (fun _ => 0%R) 0%R 50 mu eye vocab q = Ok q') by (eexists; reflexivity).
  destruct Q as [q' E].
  exists 2, 2, 1, W, (fun _ => 1%R), inv2, (fun _ => 0%R), 0%R, mu, eye, vocab, q, q'.
  assert (HC : covers 2 1 vocab) by (split; [intros; unfold vocab; lra|intros; exists 0; split; [lia|unfold vocab; lra]]).
  split; [split; [intros; unfold W; lra|intros; unfold vsum, W; cbn [seq map rsum]; ring]|]. split; [exact HC|].
  split; [apply inv2_ok; unfold eye; cbn [Nat.eqb]; lra|]. split; [exact E|]. intros d _.
  assert (L : forall m, log_like 2 1 vocab (W d) m = 0%R).
  { intros m. unfold log_like. rewrite (vsum_ext 1 _ (fun _ => 0%R)); [apply vsum_zero|]. intros t _.
    rewrite (vsum_ext 2 _ (softmax 2 m)) by (intros; unfold vocab; ring). rewrite softmax_sum by lia. rewrite ln_1. ring. }
  unfold log_posterior. rewrite !L.
  rewrite !(quad_ext 2 (inv2 eye) eye _ _ _ _ inv2_eye (fun _ _ => eq_refl) (fun _ _ => eq_refl)). rewrite !quad_eye.
  pose proof (C134_fast_query_returns_softmax 2 2 1 W (fun _ => 1%R) inv2 (fun _ => 0%R) 0%R 50 mu eye vocab q q' ltac:(lia) ltac:(lia) E d) as F.
  unfold vsum. cbn [seq map rsum]. rewrite !F. unfold q, mu. cbn [q_means Nat.eqb].
  pose proof (softmax_pos 2 ltac:(lia) (q_means q d) 0) as P0. pose proof (softmax_pos 2 ltac:(lia) (q_means q d) 1) as P1.
  pose proof (softmax_sum 2 ltac:(lia) (q_means q d)) as S1. unfold vsum in S1. cbn [seq map rsum] in S1.
  unfold q in P0, P1, S1. cbn [q_means] in P0, P1, S1.
  match type of P0 with (0 < ?a)%R => set (x := a) in * end. match type of P1 with (0 < ?a)%R => set (y := a) in * end. nra.
Qed.
Example C131_example : exists q', ctm_query 2 2 2 two_words four inv2 false (fun _ => 0%R) 0 30 (fun _ => (1 / 2)%R) eye two_topics
    {| q_means := two_means; q_exp := two_means; q_varcs := two_means |} = Ok q' /\
  forall d, d < 2 -> (log_posterior 2 2 two_topics (fun _ => 1 / 2) (inv2 eye) (two_words d) (two_means d)
                      <= log_posterior 2 2 two_topics (fun _ => 1 / 2) (inv2 eye) (two_words d) (q_means q' d))%R.
Proof.
  eexists. split; [reflexivity|].
  apply (C131_query_improves 2 2 2 two_words four inv2 (fun _ => 0%R) 0 30 (fun _ => 1 / 2)%R eye two_topics
           {| q_means := two_means; q_exp := two_means; q_varcs := two_means |}); [lia|exact two_counts|exact (positive_covers 2 2 _ ltac:(lia) two_dists)| | | |reflexivity].
  - intros i j Hi Hj. rewrite !inv2_eye by assumption. apply (eye_symm 2); assumption.
  - intros x. rewrite (quad_ext 2 (inv2 eye) eye x x x x inv2_eye (fun _ _ => eq_refl) (fun _ _ => eq_refl)). apply eye_psd.
  - intros d _. apply inv2_lhs. unfold four. lra.
Qed.

(** ** C135: a single document *)
Theorem C135_single_document_refuted : exists K T W n beta inv s mu q, counts 1 T W n /\ covers K T (c_vocab s) /\
  (forall stop, ctm_train K 1 T W n beta inv false stop 1 s = Raise ValueError) /\
  (forall stop, ctm_train K 1 T W n beta inv true stop 1 s = Raise IndexError) /\
  (forall fast perp lp iterations, ctm_query K 1 T W n inv fast perp lp iterations mu eye (c_vocab s) q = Raise IndexError) /\
  (forall perp lp iterations F X A, stm_query K 1 T W n inv perp lp iterations F X A eye (c_vocab s) q = Raise IndexError).
Proof.
  exists 2, 2, two_words, four, 1%R, inv2, two_start, (fun _ => 0%R), {| q_means := two_means; q_exp := two_means; q_varcs := two_means |}.
  destruct two_counts as [A B].
  split; [split; [intros; apply A; lia|intros; apply B; lia]|]. split; [exact (positive_covers 2 2 _ ltac:(lia) two_dists)|].
  repeat split; intros; reflexivity.
Qed.
Theorem C135_other_corpora K D T W n inv fast perp lp iterations mu sigT vocab q : D <> 1 ->
  exists q', ctm_query K D T W n inv fast perp lp iterations mu sigT vocab q = Ok q'.
Proof. intros H. unfold ctm_query. destruct (Nat.eqb_spec D 1); [contradiction|]. eexists. reflexivity. Qed.

(** An iteration that changes nothing: a document with as many words of either kind, and
    topics that mirror each other. *)
Definition even_words : mat := fun _ _ => 2%R.
Example C131_stationary_example (h : vec) :
  let s := {| s_arrays := {| q_means := fun _ _ => 0%R; q_exp := fun _ _ => 1%R; q_varcs := fun _ _ => 1%R |};
              s_same := true; s_means := fun _ _ => 0%R |} in
  (forall d k, s_means (query_iter 2 2 even_words four inv2 false (inv2 eye) two_topics (fun _ _ => 0%R) (fun _ _ => 1%R) s) d k = 0%R) /\
  derivable_pt_lim (fun u => log_posterior 2 2 two_topics (fun _ => 0) (inv2 eye) (even_words 0%nat) (fun k => 0 + u * h k))%R 0%R 0%R.
Proof.
  intros s.
  assert (HC : counts 2 2 even_words four).
  { split; [intros; unfold even_words; lra|]. intros d _. unfold vsum, four, even_words. cbn [seq map rsum]. lra. }
  assert (Hv : covers 2 2 two_topics) by exact (positive_covers 2 2 _ ltac:(lia) two_dists).
  assert (Hfix : forall d k, s_means (query_iter 2 2 even_words four inv2 false (inv2 eye) two_topics (fun _ _ => 0%R) (fun _ _ => 1%R) s) d k = 0%R).
  { intros d k. cbn [query_iter s_means s]. unfold new_means. rewrite (vsum_ext 2 _ (fun _ => 0%R)); [apply vsum_zero|].
    intros j Hj. unfold rhs. rewrite (token_weights_expected 2 2 even_words (fun _ _ => 0%R) two_topics d j Hv).
    rewrite vsoftmax_is by lia. unfold softmax, expected, mass, vsum. cbn [seq map rsum]. rewrite exp_0.
    unfold two_topics, even_words, four. destruct j as [|[|]]; [| |lia]; cbn [Nat.eqb]; field. }
  split; [exact Hfix|].
  refine (C131_fixed_points_are_stationary 2 2 2 even_words four inv2 (inv2 eye) two_topics (fun _ _ => 0%R) (fun _ _ => 1%R) (fun _ => 0%R) s 0 h
           ltac:(lia) HC Hv ltac:(lia) _ _ _ _).
  - intros i j Hi Hj. rewrite !inv2_eye by assumption. apply (eye_symm 2); assumption.
  - apply inv2_lhs. unfold four. lra.
  - intros k _. unfold vsum. cbn [seq map rsum]. ring.
  - intros k _. apply Hfix.
Qed.
Example C134_example : exists q', ctm_query 2 2 2 two_words four inv2 true (fun _ => 0%R) 0 9 (fun _ => (1 / 2)%R) eye two_topics
    {| q_means := two_means; q_exp := two_means; q_varcs := two_means |} = Ok q' /\
  q_means q' 1 0 = (exp 1 / (exp 1 + (exp 0 + 0)))%R /\ q_varcs q' = two_means.
Proof.
  eexists. split; [reflexivity|]. split; [|reflexivity].
  rewrite (C134_fast_query_returns_softmax 2 2 2 two_words four inv2 (fun _ => 0%R) 0 9 (fun _ => 1 / 2)%R eye two_topics
    {| q_means := two_means; q_exp := two_means; q_varcs := two_means |} _ ltac:(lia) ltac:(lia) eq_refl).
  reflexivity.
Qed.

Print Assumptions C64_tokens_conserved.
Print Assumptions C64_words_conserved.
Print Assumptions C64_vocabulary.
Print Assumptions C131_iteration_gain.
Print Assumptions C131_query_improves.
Print Assumptions C131_stm_query_improves.
Print Assumptions C131_posterior_gradient.
Print Assumptions C131_fixed_points_are_stationary.
Print Assumptions C132_training_improves.
Print Assumptions C132_training_succeeds.
Print Assumptions C133_covariance_is_identity.
Print Assumptions C133_learns_covariance_refuted.
Print Assumptions C134_query_returns_means.
Print Assumptions C134_fast_query_returns_softmax.
Print Assumptions C134_query_keeps_variances.
Print Assumptions C134_fast_query_refuted.
Print Assumptions C135_single_document_refuted.
Print Assumptions C135_other_corpora.
