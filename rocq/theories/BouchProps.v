(** * Topic models with Bouchard's bound: C163-C174. *)
From Coq Require Import List Reals ZArith Arith Bool Lra Lia.
From Verif Require Import Base RealModel RealProofs VbModel VbProofs VbProps LinkModel LinkProps CtmModel CtmProofs CtmProps
  StmProofs StmProps MtmModel MtmProofs MtmProps BouchModel BouchProofs.
Import ListNotations.
Open Scope nat_scope.

(** ** Loops *)
(** What a loop of at least one turn returns is what a turn made of a state with the
    invariant. *)
Lemma loop_last {St} (iter : St -> res St) perp least size f (I : St -> Prop) :
  (forall st st', I st -> iter st = Ok st' -> I st') ->
  forall todo itr idx last st out, I st -> log_loop iter perp least size f itr (S todo) idx last st = Ok out ->
  exists st0, I st0 /\ iter st0 = Ok out.
Proof.
  intros Hstep. induction todo as [|todo IH]; intros itr idx last st out HI E.
  - cbn [log_loop] in E. destruct (iter st) as [st1|e] eqn:E1; cbn [bind] in E; [|discriminate].
    exists st. split; [exact HI|]. destruct (itr mod f =? 0); [|congruence].
    destruct (size <=? idx); [discriminate|]. destruct (_ && _ && _); congruence.
  - remember (S todo) as td. cbn [log_loop] in E. subst td. destruct (iter st) as [st1|e] eqn:E1; cbn [bind] in E; [|discriminate].
    pose proof (Hstep st st1 HI E1) as HI1.
    destruct (itr mod f =? 0); [|apply (IH _ _ _ _ _ HI1 E)].
    destruct (size <=? idx); [discriminate|]. destruct (_ && _ && _); [|apply (IH _ _ _ _ _ HI1 E)].
    exists st. split; [exact HI|congruence].
Qed.
Lemma train_last {St} (iter : St -> res St) perp least f iterations (I : St -> Prop) st out :
  (forall st st', I st -> iter st = Ok st' -> I st') -> I st -> 0 < iterations ->
  log_train iter perp least f iterations st = Ok out -> exists st0, I st0 /\ iter st0 = Ok out.
Proof.
  intros Hs HI Hi E. unfold log_train in E. destruct (f =? 0); [discriminate|]. destruct iterations as [|m]; [lia|].
  exact (loop_last iter perp least _ f I Hs _ _ _ _ _ _ HI E).
Qed.
Lemma query_last (iter : bquery -> bquery) perp (I : bquery -> Prop) : (forall q, I q -> I (iter q)) ->
  forall todo itr last q, I q -> exists q0, I q0 /\ bquery_loop iter perp itr (S todo) last q = iter q0.
Proof.
  intros Hs. induction todo as [|todo IH]; intros itr last q HI.
  - exists q. split; [exact HI|]. cbn [bquery_loop]. destruct (_ && _); reflexivity.
  - remember (S todo) as td. cbn [bquery_loop]. subst td. destruct (_ && _); [exists q; split; [exact HI|reflexivity]|].
    apply IH, Hs, HI.
Qed.

(** ** C163: the variances of the topics *)
(** A state of the documents: positive variances and curvatures. *)
Definition doc_sound (D K : nat) (varcs lxi : mat) : Prop :=
  forall d k, d < D -> k < K -> (0 < varcs d k)%R /\ (0 < lxi d k)%R.

Lemma xi_pos m v s : (0 < v)%R -> (0 < derive_xi m v s)%R.
Proof.
  intros Hv. apply sqrt_lt_R0. replace (m * m - 2 * m * s + s * s + v * v)%R with ((m - s) * (m - s) + v * v)%R by ring.
  pose proof (Rle_0_sqr (m - s)) as H. unfold Rsqr in H. nra.
Qed.
Lemma lxi_range means varcs s d k : (0 < varcs d k)%R -> (0 < lxi_of means varcs s d k < 1 / 8)%R.
Proof.
  intros Hv. unfold lxi_of. pose proof (xi_pos (means d k) (varcs d k) (s d) Hv) as Hx.
  rewrite neg_jakkola_is by lra. split; [apply jaakkola_pos|apply jaakkola_below]; exact Hx.
Qed.
Lemma diag_at c k : diag c k k = c k.
Proof. unfold diag. rewrite Nat.eqb_refl. reflexivity. Qed.
(** The harmonic sum of the curvature of the words and the precision of the prior. *)
Lemma variance_facts N l c : (0 <= N)%R -> (0 < l)%R -> (0 < c)%R ->
  (0 < / (N * l + / c) <= c)%R /\ (N = 0%R -> / (N * l + / c) = c)%R.
Proof.
  intros HN Hl Hc. assert (Hi : (0 < / c)%R) by (apply Rinv_0_lt_compat; exact Hc).
  pose proof (Rmult_le_pos N l HN ltac:(lra)). split; [split|].
  - apply Rinv_0_lt_compat. lra.
  - rewrite <- (Rinv_inv c) at 2. apply Rinv_le_contravar; lra.
  - intros ->. rewrite Rmult_0_l, Rplus_0_l. apply Rinv_inv.
Qed.

Section ctm_training.
  Variables (K D T : nat) (W : mat) (n : vec) (beta : R) (oas : mat -> mat).
  Hypothesis HD : 0 < D.
  Hypothesis Hn : forall d, d < D -> (0 <= n d)%R.
  Hypothesis Hoas : forall m k, k < K -> (0 <= oas m k k)%R.

  Lemma niw_diag_pos mu means varcs k : (forall d, d < D -> (0 < varcs d k)%R) -> k < K -> (0 < niw_diag K D oas mu means varcs k)%R.
  Proof.
    clear Hn. intros Hv Hk. unfold niw_diag. pose proof (Hoas means k Hk).
    assert (HDr : (0 < INR D)%R) by (apply lt_0_INR; exact HD).
    assert (0 < vsum D (fun d => varcs d k) / INR D)%R by (apply Rdiv_lt_0_compat; [apply vsum_pos; assumption|exact HDr]).
    assert (HKp : (0 < kappa K)%R) by (unfold kappa; pose proof (pos_INR K); lra).
    assert (0 <= kappa K * INR D / (kappa K + INR D) * (mu k * mu k))%R.
    { apply Rmult_le_pos; [|pose proof (Rle_0_sqr (mu k)) as Q; exact Q]. left. apply Rdiv_lt_0_compat; [apply Rmult_lt_0_compat; assumption|lra]. }
    lra.
  Qed.

  Lemma bouch_iter_sound st st' : doc_sound D K (b_varcs st) (b_lxi st) -> bouch_iter K D T W n beta oas st = Ok st' ->
    forall d k, d < D -> k < K -> (0 < b_lxi st' d k < 1 / 4)%R /\ (0 < b_varcs st' d k <= b_sigT st' k k)%R /\
      (n d = 0%R -> b_varcs st' d k = b_sigT st' k k).
  Proof.
    intros HS E d k Hd Hk. unfold bouch_iter in E. destruct (D =? 1); [discriminate|]. apply ok_inj in E. subst st'.
    cbn [b_lxi b_varcs b_sigT]. rewrite !diag_at.
    set (c := niw_diag K D oas (niw_mean K D (b_means st)) (b_means st) (b_varcs st)).
    assert (Hc : (0 < c k)%R) by (apply niw_diag_pos; [intros d0 H0; apply (HS d0 k H0 Hk)|exact Hk]).
    destruct (HS d k Hd Hk) as [_ Hl].
    pose proof (variance_facts (n d) (b_lxi st d k) (c k) (Hn d Hd) Hl Hc) as [V1 V2].
    replace (1 / c k)%R with (/ c k)%R by (unfold Rdiv; ring). split; [|split; assumption].
    match goal with |- (0 < 2 * lxi_of ?m ?v ?s d k < _)%R => pose proof (lxi_range m v s d k) as L end.
    cbv beta in L. rewrite diag_at in L. replace (1 / c k)%R with (/ c k)%R in L by (unfold Rdiv; ring).
    specialize (L (proj1 V1)). lra.
  Qed.

  Theorem C163_ctm_training perp logFrequency iterations st out : doc_sound D K (b_varcs st) (b_lxi st) -> 0 < iterations ->
    bouch_train K D T W n beta oas perp logFrequency iterations st = Ok out ->
    forall d k, d < D -> k < K -> (0 < b_lxi out d k < 1 / 4)%R /\ (0 < b_varcs out d k <= b_sigT out k k)%R /\
      (n d = 0%R -> b_varcs out d k = b_sigT out k k).
  Proof.
    intros HS Hi E. unfold bouch_train in E.
    destruct (train_last _ _ _ _ _ (fun st => doc_sound D K (b_varcs st) (b_lxi st)) (bouch_start st) out
      ltac:(intros s1 s2 H1 H2 d k Hd Hk; pose proof (bouch_iter_sound s1 s2 H1 H2 d k Hd Hk); lra) HS Hi E) as [st0 [HI E0]].
    exact (bouch_iter_sound st0 out HI E0).
  Qed.
End ctm_training.

Section side_training.
  Variables (K D T : nat) (W : mat) (n : vec) (beta : R) (inv : nat -> mat -> mat) (F P : nat) (fv lfv : R) (X : mat).
  Hypothesis HP : 0 < P + F + D.
  Hypothesis Hn : forall d, d < D -> (0 <= n d)%R.
  Hypothesis Hfv : (0 < fv)%R.
  Hypothesis Hlfv : (0 < lfv)%R.

  Lemma yv_diag_pos st k : (forall d, d < D -> (0 < y_varcs st d k)%R) -> (0 < yv_diag D F P fv lfv X st k)%R.
  Proof.
    clear Hn. intros Hv. unfold yv_diag.
    assert (HPF : (0 < INR P + INR F + INR D)%R) by (rewrite <- !plus_INR; apply lt_0_INR; exact HP).
    assert (H1 : forall m (x : vec), (0 <= vsum m (fun i => x i * x i))%R) by (intros m x; apply vsum_nonneg; intros i _; exact (Rle_0_sqr (x i))).
    match goal with |- (0 < (1 / lfv * ?a + 1 / fv * ?b + ?c + ?e) / _ + _)%R =>
      assert (0 <= a)%R by apply H1; assert (0 <= b)%R by (apply (H1 F (fun f => y_A st k f - vsum P (fun p => y_Y st k p * y_V st p f))%R));
      assert (0 <= c)%R by (apply (H1 D (fun d => y_means st d k - vsum F (fun f => X d f * y_A st k f))%R)); assert (0 <= e)%R by (apply vsum_nonneg; intros; left; apply Hv; assumption);
      assert (0 <= (1 / lfv * a + 1 / fv * b + c + e) / (INR P + INR F + INR D))%R; [|lra] end.
    apply Rmult_le_pos; [|left; apply Rinv_0_lt_compat; exact HPF].
    assert (0 < 1 / lfv)%R by (apply Rdiv_lt_0_compat; lra). assert (0 < 1 / fv)%R by (apply Rdiv_lt_0_compat; lra).
    repeat apply Rplus_le_le_0_compat; try assumption; apply Rmult_le_pos; try assumption; lra.
  Qed.
  Lemma yv_iter_sound debug st st' : doc_sound D K (y_varcs st) (y_lxi st) -> yv_iter K D T W n beta inv F P fv lfv X debug st = Ok st' ->
    forall d k, d < D -> k < K -> (0 < y_lxi st' d k < 1 / 4)%R /\ (0 < y_varcs st' d k <= y_sigT st' k k)%R /\
      (n d = 0%R -> y_varcs st' d k = y_sigT st' k k).
  Proof.
    intros HS E d k Hd Hk. unfold yv_iter in E. destruct debug; [discriminate|]. destruct (D =? 1); [discriminate|]. apply ok_inj in E. subst st'.
    cbn [y_lxi y_varcs y_sigT]. rewrite !diag_at. set (c := yv_diag D F P fv lfv X st).
    assert (Hc : (0 < c k)%R) by (apply yv_diag_pos; intros d0 H0; apply (HS d0 k H0 Hk)).
    destruct (HS d k Hd Hk) as [_ Hl].
    pose proof (variance_facts (n d) (y_lxi st d k) (c k) (Hn d Hd) Hl Hc) as [V1 V2].
    replace (1 / (n d * y_lxi st d k + / c k))%R with (/ (n d * y_lxi st d k + / c k))%R by (unfold Rdiv; ring).
    split; [|split; assumption].
    match goal with |- (0 < 2 * lxi_of ?m ?v ?s d k < _)%R => pose proof (lxi_range m v s d k) as L end.
    cbv beta in L. unfold Rdiv at 1 in L. rewrite Rmult_1_l in L. specialize (L (proj1 V1)). lra.
  Qed.
  Theorem C163_side_training debug perp logFrequency iterations st out : doc_sound D K (y_varcs st) (y_lxi st) -> 0 < iterations ->
    yv_train K D T W n beta inv F P fv lfv X debug perp logFrequency iterations st = Ok out ->
    forall d k, d < D -> k < K -> (0 < y_lxi out d k < 1 / 4)%R /\ (0 < y_varcs out d k <= y_sigT out k k)%R /\
      (n d = 0%R -> y_varcs out d k = y_sigT out k k).
  Proof.
    intros HS Hi E. unfold yv_train in E.
    destruct (train_last _ _ _ _ _ (fun st => doc_sound D K (y_varcs st) (y_lxi st)) (yv_start st) out
      ltac:(intros s1 s2 H1 H2 d k Hd Hk; pose proof (yv_iter_sound debug s1 s2 H1 H2 d k Hd Hk); lra) HS Hi E) as [st0 [HI E0]].
    exact (yv_iter_sound debug st0 out HI E0).
  Qed.
End side_training.

(** The queries: the prior's variance is the inverse of the diagonal of the precision. *)
Section queries.
  Variables (K D T : nat) (W : mat) (n : vec) (inv : mat -> mat).
  Hypothesis Hn : forall d, d < D -> (0 <= n d)%R.

  Lemma bquery_iter_sound isigT prior S q : (forall k, k < K -> (0 < isigT k k)%R) -> doc_sound D K (bq_varcs q) (bq_lxi q) ->
    forall d k, d < D -> k < K -> let q' := bquery_iter K n inv isigT prior S q in
      (0 < bq_lxi q' d k < 1 / 4)%R /\ (0 < bq_varcs q' d k <= / isigT k k)%R /\ (n d = 0%R -> bq_varcs q' d k = / isigT k k)%R.
  Proof.
    intros Hp HS d k Hd Hk. cbn [bquery_iter bq_lxi bq_varcs]. destruct (HS d k Hd Hk) as [_ Hl].
    pose proof (variance_facts (n d) (bq_lxi q d k) (/ isigT k k) (Hn d Hd) Hl ltac:(apply Rinv_0_lt_compat, Hp; exact Hk)) as V.
    rewrite Rinv_inv in V. destruct V as [V1 V2].
    replace (1 / (n d * bq_lxi q d k + isigT k k))%R with (/ (n d * bq_lxi q d k + isigT k k))%R by (unfold Rdiv; ring).
    split; [|split; assumption].
    match goal with |- (0 < 2 * lxi_of ?m ?v ?s d k < _)%R => pose proof (lxi_range m v s d k) as L end.
    cbv beta in L. unfold Rdiv at 1 in L. rewrite Rmult_1_l in L. specialize (L (proj1 V1)). lra.
  Qed.
  Theorem C163_ctm_query perp last iterations mu sigT vocab q q' : (forall k, k < K -> (0 < inv sigT k k)%R) ->
    doc_sound D K (bq_varcs q) (bq_lxi q) -> 0 < iterations ->
    bouch_query K D T W n inv perp last iterations mu sigT vocab q = Ok q' ->
    forall d k, d < D -> k < K -> (0 < bq_lxi q' d k < 1 / 4)%R /\ (0 < bq_varcs q' d k <= / inv sigT k k)%R /\
      (n d = 0%R -> bq_varcs q' d k = / inv sigT k k)%R.
  Proof.
    intros Hp HS Hi E. unfold bouch_query in E. destruct (_ && _); [discriminate|]. apply ok_inj in E. subst q'.
    destruct iterations as [|m]; [lia|].
    destruct (query_last (bquery_iter K n inv (inv sigT) (ctm_prior K (inv sigT) mu) (token_weights K T W (exp_means K (bq_means q)) vocab)) perp
      (fun q => doc_sound D K (bq_varcs q) (bq_lxi q))
      ltac:(intros q0 H0 d k Hd Hk; pose proof (bquery_iter_sound (inv sigT) (ctm_prior K (inv sigT) mu)
              (token_weights K T W (exp_means K (bq_means q)) vocab) q0 Hp H0 d k Hd Hk) as B; cbv zeta in B; lra) m 0 last q HS) as [q0 [HI E0]].
    rewrite E0. exact (bquery_iter_sound _ _ _ q0 Hp HI).
  Qed.

  Lemma yquery_iter_sound isigT mu vocab q : (forall k, k < K -> (0 < isigT k k)%R) -> doc_sound D K (bq_varcs q) (bq_lxi q) ->
    forall d k, d < D -> k < K -> let q' := yquery_iter K T W n isigT mu vocab q in
      (0 < bq_lxi q' d k < 1 / 8)%R /\ (0 < bq_varcs q' d k <= / isigT k k)%R /\ (n d = 0%R -> bq_varcs q' d k = / isigT k k)%R.
  Proof.
    intros Hp HS d k Hd Hk. cbn [yquery_iter bq_lxi bq_varcs]. destruct (HS d k Hd Hk) as [_ Hl].
    pose proof (variance_facts (n d) (2 * bq_lxi q d k) (/ isigT k k) (Hn d Hd) ltac:(lra) ltac:(apply Rinv_0_lt_compat, Hp; exact Hk)) as V.
    rewrite Rinv_inv in V.
    replace (/ (n d * (2 * bq_lxi q d k) + isigT k k))%R with (1 / (2 * n d * bq_lxi q d k + isigT k k))%R in V
      by (unfold Rdiv; rewrite Rmult_1_l; f_equal; ring).
    destruct V as [V1 V2]. split; [|split; assumption]. apply lxi_range. exact (proj1 V1).
  Qed.
  Theorem C163_side_query F X debug perp last iterations A sigT vocab q q' : (forall k, k < K -> (0 < inv sigT k k)%R) ->
    doc_sound D K (bq_varcs q) (bq_lxi q) -> 0 < iterations ->
    yv_query K D T W n inv F X debug perp last iterations A sigT vocab q = Ok q' ->
    forall d k, d < D -> k < K -> (0 < bq_lxi q' d k < 1 / 8)%R /\ (0 < bq_varcs q' d k <= / inv sigT k k)%R /\
      (n d = 0%R -> bq_varcs q' d k = / inv sigT k k)%R.
  Proof.
    intros Hp HS Hi E. unfold yv_query in E. destruct iterations as [|m]; [lia|]. cbn [Nat.eqb] in E.
    destruct (D =? 1); [discriminate|]. destruct debug; [discriminate|]. apply ok_inj in E. subst q'.
    destruct (query_last (yquery_iter K T W n (inv sigT) (stm_mean F X A) vocab) perp (fun q => doc_sound D K (bq_varcs q) (bq_lxi q))
      ltac:(intros q0 H0 d k Hd Hk; pose proof (yquery_iter_sound (inv sigT) (stm_mean F X A) vocab q0 Hp H0 d k Hd Hk) as B; cbv zeta in B; lra)
      m 0 last q HS) as [q0 [HI E0]].
    rewrite E0. exact (yquery_iter_sound _ _ _ q0 Hp HI).
  Qed.
End queries.

(** ** C164: the topics *)
Lemma exp_means_pos K m d k : (0 < exp_means K m d k)%R.
Proof. apply exp_pos. Qed.
Section vocabulary.
  Variables (K D T : nat) (W : mat) (n : vec) (beta : R).
  Hypothesis HK : 0 < K.
  Hypothesis HT : 0 < T.
  Hypothesis Hb : (0 < beta)%R.
  Hypothesis HW : counts D T W n.

  Lemma update_dist m v : covers K T v -> forall k, k < K -> positive_dist T (vocab_update K D T W beta (exp_means K m) v k).
  Proof.
    intros Hv k Hk. destruct HW as [H0 _]. split.
    - intros t Ht. apply vocab_update_pos; try assumption. intros; apply exp_means_pos.
    - apply vocab_update_sum; try assumption. intros; apply exp_means_pos.
  Qed.
  (** The log-likelihood of the words for given topics of the documents, with the
      vocabulary's prior. *)
  Definition words_fit (M v : mat) : R :=
    (vsum D (fun d => log_like K T v (W d) (M d)) + beta * vsum K (fun k => vsum T (fun t => ln (v k t))))%R.
  Lemma update_fits m v : (forall k, k < K -> positive_dist T (v k)) ->
    (words_fit m v <= words_fit m (vocab_update K D T W beta (exp_means K m) v))%R.
  Proof.
    intros Hv. destruct HW as [H0 _]. apply (vocab_step K D T W HK H0 m v beta Hb HT).
    - intros k t Hk Ht. apply (Hv k Hk). exact Ht.
    - intros k Hk. apply (Hv k Hk).
  Qed.

  Theorem C164_ctm_topics oas perp logFrequency iterations st out : covers K T (b_vocab st) -> 0 < iterations ->
    bouch_train K D T W n beta oas perp logFrequency iterations st = Ok out -> forall k, k < K -> positive_dist T (b_vocab out k).
  Proof.
    intros Hv Hi E.
    assert (Hs : forall s1 s2, covers K T (b_vocab s1) -> bouch_iter K D T W n beta oas s1 = Ok s2 -> forall k, k < K -> positive_dist T (b_vocab s2 k)).
    { intros s1 s2 H1 E1. unfold bouch_iter in E1. destruct (D =? 1); [discriminate|]. apply ok_inj in E1. subst s2. cbn [b_vocab].
      apply update_dist. exact H1. }
    unfold bouch_train in E.
    destruct (train_last _ _ _ _ _ (fun st => covers K T (b_vocab st)) (bouch_start st) out
      ltac:(intros s1 s2 H1 H2; apply positive_covers; [exact HK|exact (Hs s1 s2 H1 H2)]) Hv Hi E) as [st0 [HI E0]].
    exact (Hs st0 out HI E0).
  Qed.
  Theorem C164_ctm_topics_improve oas st st' : (forall k, k < K -> positive_dist T (b_vocab st k)) ->
    bouch_iter K D T W n beta oas st = Ok st' -> (words_fit (b_means st) (b_vocab st) <= words_fit (b_means st) (b_vocab st'))%R.
  Proof.
    intros Hv E. unfold bouch_iter in E. destruct (D =? 1); [discriminate|]. apply ok_inj in E. subst st'. cbn [b_vocab].
    apply update_fits. exact Hv.
  Qed.
  Theorem C164_side_topics inv F P fv lfv X debug perp logFrequency iterations st out : covers K T (y_vocab st) -> 0 < iterations ->
    yv_train K D T W n beta inv F P fv lfv X debug perp logFrequency iterations st = Ok out -> forall k, k < K -> positive_dist T (y_vocab out k).
  Proof.
    intros Hv Hi E.
    assert (Hs : forall s1 s2, covers K T (y_vocab s1) -> yv_iter K D T W n beta inv F P fv lfv X debug s1 = Ok s2 -> forall k, k < K -> positive_dist T (y_vocab s2 k)).
    { intros s1 s2 H1 E1. unfold yv_iter in E1. destruct debug; [discriminate|]. destruct (D =? 1); [discriminate|]. apply ok_inj in E1. subst s2. cbn [y_vocab].
      apply update_dist. exact H1. }
    unfold yv_train in E.
    destruct (train_last _ _ _ _ _ (fun st => covers K T (y_vocab st)) (yv_start st) out
      ltac:(intros s1 s2 H1 H2; apply positive_covers; [exact HK|exact (Hs s1 s2 H1 H2)]) Hv Hi E) as [st0 [HI E0]].
    exact (Hs st0 out HI E0).
  Qed.
  Theorem C164_side_topics_improve inv F P fv lfv X debug st st' : (forall k, k < K -> positive_dist T (y_vocab st k)) ->
    yv_iter K D T W n beta inv F P fv lfv X debug st = Ok st' -> (words_fit (y_means st) (y_vocab st) <= words_fit (y_means st) (y_vocab st'))%R.
  Proof.
    intros Hv E. unfold yv_iter in E. destruct debug; [discriminate|]. destruct (D =? 1); [discriminate|]. apply ok_inj in E. subst st'. cbn [y_vocab].
    apply update_fits. exact Hv.
  Qed.
End vocabulary.

(** ** C165: the steps of the means and the variances *)
(** What the curvatures are for: Bouchard's bound, with the coefficient that the code
    computes. *)
Theorem C165_bound K s (xi x : vec) : 0 < K -> (forall k, k < K -> (0 < xi k)%R) ->
  (ln (vsum K (fun k => exp (x k)))
   <= s + vsum K (fun k => (x k - s - xi k) / 2 + neg_jakkola (xi k) * ((x k - s) * (x k - s) - xi k * xi k) + ln (1 + exp (xi k))))%R.
Proof.
  intros HK Hx. apply (Rle_trans _ _ _ (bouchard_bound K s xi x HK Hx)). right. unfold bouchard. f_equal. apply vsum_ext. intros k Hk.
  rewrite neg_jakkola_is by (pose proof (Hx k Hk); lra). reflexivity.
Qed.

Lemma diag_dot K c x k : k < K -> vsum K (fun j => diag c k j * x j)%R = (c k * x k)%R.
Proof.
  intros Hk. rewrite (vsum_ext K _ (fun j => eye k j * (c j * x j))%R); [apply (vsum_eye K k (fun j => c j * x j)%R Hk)|].
  intros j _. unfold diag, eye. destruct (Nat.eqb_spec k j) as [->|]; ring.
Qed.
Lemma diag_symm K c : symm K (diag c).
Proof.
  intros i j _ _. unfold diag. destruct (Nat.eqb_spec i j) as [->|N]; [rewrite Nat.eqb_refl; reflexivity|].
  destruct (Nat.eqb_spec j i); [congruence|reflexivity].
Qed.
Lemma diag_psd K c : (forall k, k < K -> (0 <= c k)%R) -> psd K (diag c).
Proof.
  intros Hc x. unfold diag. rewrite quad_diag. apply vsum_nonneg. intros k Hk.
  apply Rmult_le_pos; [apply Hc; exact Hk|exact (Rle_0_sqr (x k))].
Qed.
Lemma diag_posdef K c : (forall k, k < K -> (0 < c k)%R) -> posdef K (diag c).
Proof.
  intros Hc x [k [Hk Hx]]. unfold diag. rewrite quad_diag. apply (vsum_pos_one K _ k Hk).
  - intros j Hj. apply Rmult_le_pos; [left; apply Hc; exact Hj|exact (Rle_0_sqr (x j))].
  - apply Rmult_lt_0_compat; [apply Hc; exact Hk|]. exact (Rlt_0_sqr (x k) Hx).
Qed.

(** A whole step with a diagonal prior. *)
Lemma diag_step K T v mu (c : vec) w s xi (m u m' u' : vec) : covers K T v -> (forall t, t < T -> (0 <= w t)%R) ->
  (forall k, k < K -> (0 < xi k)%R) -> (forall k, k < K -> (0 < c k)%R) -> (forall k, k < K -> (0 < u k)%R) ->
  (forall k, k < K -> u' k = (/ (vsum T w * (2 * jaakkola (xi k)) + / c k))%R) ->
  (forall k, k < K -> m' k = (u' k * ((s * (2 * jaakkola (xi k)) - 5 / 10) * vsum T w + expected K T v w m k + / c k * mu k))%R) ->
  (objective K T v mu (diag (fun k => / c k)) w s xi m u <= objective K T v mu (diag (fun k => / c k)) w s xi m' u')%R.
Proof.
  intros Hv Hw Hxi Hc Hu Eu Em.
  assert (Hi : forall k, k < K -> (0 < / c k)%R) by (intros k Hk; apply Rinv_0_lt_compat, Hc; exact Hk).
  apply (Rle_trans _ (objective K T v mu (diag (fun k => / c k)%R) w s xi m u')).
  - apply varcs_grow; try assumption.
    + intros k Hk. rewrite diag_at. apply Hi. exact Hk.
    + intros k Hk. rewrite (Eu k Hk), diag_at. f_equal. ring.
  - apply means_grow; try assumption; [apply diag_symm|apply diag_psd; intros; left; apply Hi; assumption|].
    intros k Hk. rewrite !diag_dot by exact Hk. cbv beta. rewrite (Em k Hk), (Eu k Hk).
    assert (0 <= vsum T w)%R by (apply vsum_nonneg; exact Hw). pose proof (jaakkola_pos (xi k) (Hxi k Hk)). pose proof (Hi k Hk) as Hik.
    pose proof (Rmult_le_pos _ (2 * jaakkola (xi k)) H ltac:(lra)). pose proof (Hc k Hk).
    field. split; [lra|]. apply Rgt_not_eq. unfold Rgt.
    replace (vsum T w * (2 * jaakkola (xi k)) * c k + 1)%R with ((vsum T w * (2 * jaakkola (xi k)) + / c k) * c k)%R by (field; lra).
    apply Rmult_lt_0_compat; lra.
Qed.

(** What one turn of the training makes. *)
Lemma bouch_iter_shape K D T W n beta oas st st' : bouch_iter K D T W n beta oas st = Ok st' ->
  D <> 1 /\ b_s st' = b_s st /\ b_mean st' = niw_mean K D (b_means st) /\
  b_sigT st' = diag (niw_diag K D oas (b_mean st') (b_means st) (b_varcs st)) /\
  b_vocab st' = vocab_update K D T W beta (exp_means K (b_means st)) (b_vocab st) /\
  (forall d k, b_varcs st' d k = / (n d * b_lxi st d k + / b_sigT st' k k))%R /\
  exists raw : mat, (forall d k, b_means st' d k = (raw d k - raw d 0%nat)%R) /\
    (forall d k, k < K -> raw d k = (b_varcs st' d k * ((b_s st d * b_lxi st d k - 5 / 10) * n d
       + token_weights K T W (exp_means K (b_means st)) (b_vocab st') d k + / b_sigT st' k k * b_mean st' k))%R).
Proof.
  intros E. unfold bouch_iter in E. destruct (Nat.eqb_spec D 1) as [|HD]; [discriminate|]. apply ok_inj in E.
  split; [exact HD|]. subst st'. cbn [b_s b_mean b_sigT b_vocab b_varcs b_means].
  split; [reflexivity|]. split; [reflexivity|]. split; [reflexivity|]. split; [reflexivity|]. split.
  - intros d k. rewrite !diag_at. f_equal. unfold Rdiv. ring.
  - exists (fun d k => / (n d * b_lxi st d k + diag (fun k => 1 / niw_diag K D oas (niw_mean K D (b_means st)) (b_means st) (b_varcs st) k) k k)
      * bouch_rhs n (ctm_prior K (diag (fun k => 1 / niw_diag K D oas (niw_mean K D (b_means st)) (b_means st) (b_varcs st) k)) (niw_mean K D (b_means st)))
          (token_weights K T W (exp_means K (b_means st)) (vocab_update K D T W beta (exp_means K (b_means st)) (b_vocab st))) (b_lxi st) (b_s st) d k)%R.
    split; [intros; reflexivity|]. intros d k Hk. cbv beta. unfold bouch_rhs, ctm_prior. rewrite diag_dot by exact Hk.
    rewrite !diag_at. replace (1 / niw_diag K D oas (niw_mean K D (b_means st)) (b_means st) (b_varcs st) k)%R
      with (/ niw_diag K D oas (niw_mean K D (b_means st)) (b_means st) (b_varcs st) k)%R by (unfold Rdiv; ring). reflexivity.
Qed.

(** The training of the correlated topic model: up to the shift of line 272. *)
Theorem C165_ctm_training K D T W n beta oas st st' d xi : 0 < K -> 0 < T -> (0 < beta)%R -> counts D T W n ->
  covers K T (b_vocab st) -> (forall m k, k < K -> (0 <= oas m k k)%R) -> doc_sound D K (b_varcs st) (b_lxi st) ->
  bouch_iter K D T W n beta oas st = Ok st' -> d < D ->
  (forall k, k < K -> (0 < xi k)%R /\ b_lxi st d k = (2 * jaakkola (xi k))%R) -> exists c,
  (objective K T (b_vocab st') (b_mean st') (diag (fun k => / b_sigT st' k k)) (W d) (b_s st d) xi (b_means st d) (b_varcs st d)
   <= objective K T (b_vocab st') (b_mean st') (diag (fun k => / b_sigT st' k k)) (W d) (b_s st d) xi
        (fun k => b_means st' d k + c) (b_varcs st' d))%R.
Proof.
  intros HK HT Hb HW Hv Hoas HS E Hd Hxi.
  destruct (bouch_iter_shape _ _ _ _ _ _ _ _ _ E) as (HD & _ & Emu & Esig & Evoc & Evar & raw & Em & Eraw).
  assert (Hcov : covers K T (b_vocab st')).
  { rewrite Evoc. apply positive_covers; [exact HK|]. apply (update_dist K D T W n beta HK HT Hb HW). exact Hv. }
  assert (Hc : forall k, k < K -> (0 < b_sigT st' k k)%R).
  { intros k Hk. rewrite Esig, diag_at. apply niw_diag_pos; [lia|exact Hoas| |exact Hk]. intros d0 Hd0. apply (HS d0 k Hd0 Hk). }
  destruct HW as [H0 Hlen]. exists (raw d 0%nat).
  apply (diag_step K T (b_vocab st') (b_mean st') (fun k => b_sigT st' k k)); try assumption.
  - intros t Ht. apply H0; assumption.
  - intros k Hk. apply Hxi. exact Hk.
  - intros k Hk. apply (HS d k Hd Hk).
  - intros k Hk. rewrite Evar, (Hlen d Hd), (proj2 (Hxi k Hk)). reflexivity.
  - intros k Hk. rewrite Em, (Eraw d k Hk), (token_weights_expected K T W (b_means st) (b_vocab st') d k Hcov), (Hlen d Hd), (proj2 (Hxi k Hk)). ring.
Qed.

(** That of the side topic model, with the words' topics of the vocabulary before it. *)
Theorem C165_side_training K D T W n beta inv F P fv lfv X debug st st' d xi : 0 < K -> counts D T W n ->
  covers K T (y_vocab st) -> (0 < fv)%R -> (0 < lfv)%R -> doc_sound D K (y_varcs st) (y_lxi st) ->
  yv_iter K D T W n beta inv F P fv lfv X debug st = Ok st' -> d < D ->
  (forall k, k < K -> (0 < xi k)%R /\ y_lxi st d k = (2 * jaakkola (xi k))%R) ->
  (objective K T (y_vocab st) (stm_mean F X (y_A st') d) (diag (fun k => / y_sigT st' k k)) (W d) (y_s st d) xi (y_means st d) (y_varcs st d)
   <= objective K T (y_vocab st) (stm_mean F X (y_A st') d) (diag (fun k => / y_sigT st' k k)) (W d) (y_s st d) xi
        (y_means st' d) (y_varcs st' d))%R.
Proof.
  intros HK HW Hv Hfv Hlfv HS E Hd Hxi. destruct HW as [H0 Hlen].
  unfold yv_iter in E. destruct debug; [discriminate|]. destruct (D =? 1); [discriminate|]. apply ok_inj in E. subst st'.
  cbn [y_A y_sigT y_means y_varcs].
  apply (diag_step K T (y_vocab st) _ (fun k => diag (yv_diag D F P fv lfv X st) k k)); try assumption.
  - intros t Ht. apply H0; assumption.
  - intros k Hk. apply Hxi. exact Hk.
  - intros k Hk. rewrite diag_at. apply yv_diag_pos; [lia|assumption|assumption|]. intros d0 Hd0. apply (HS d0 k Hd0 Hk).
  - intros k Hk. apply (HS d k Hd Hk).
  - intros k Hk. rewrite diag_at, (Hlen d Hd), (proj2 (Hxi k Hk)). unfold Rdiv. ring.
  - intros k Hk. unfold bouch_rhs. rewrite diag_at, (token_weights_expected K T W (y_means st) (y_vocab st) d k Hv), (Hlen d Hd), (proj2 (Hxi k Hk)).
    unfold stm_mean, Rdiv. rewrite Rmult_1_l. rewrite (Rplus_comm (/ yv_diag D F P fv lfv X st k) _). ring.
Qed.

(** The inverse of a diagonal matrix. *)
Lemma diag_inverse K M N : (forall i j, i < K -> j < K -> i <> j -> M i j = 0%R) -> (forall k, k < K -> (0 < M k k)%R) -> is_inverse K M N ->
  forall i j, i < K -> j < K -> N i j = diag (fun k => / M k k)%R i j.
Proof.
  intros Hz Hp HI i j Hi Hj. pose proof (HI i j Hi Hj) as E. pose proof (Hp i Hi).
  rewrite (vsum_ext K _ (fun l => eye i l * (M l l * N l j))%R) in E.
  - rewrite (vsum_eye K i (fun l => M l l * N l j)%R Hi) in E. unfold eye in E. unfold diag.
    destruct (Nat.eqb_spec i j) as [<-|]; [apply (Rmult_eq_reg_l (M i i)); [rewrite E; field; lra|lra]|].
    apply (Rmult_eq_reg_l (M i i)); [rewrite E; ring|lra].
  - intros l Hl. unfold eye. destruct (Nat.eqb_spec i l) as [->|Hne]; [ring|]. rewrite (Hz i l Hi Hl Hne). ring.
Qed.
Lemma objective_prior K T v mu P Q w s xi m u : (forall i j, i < K -> j < K -> P i j = Q i j) ->
  objective K T v mu P w s xi m u = objective K T v mu Q w s xi m u.
Proof.
  intros E. unfold objective. rewrite (quad_ext K P Q (fun k => m k - mu k)%R (fun k => m k - mu k)%R (fun k => m k - mu k)%R (fun k => m k - mu k)%R E); [|reflexivity|reflexivity].
  rewrite (vsum_ext K (fun k => P k k * u k)%R (fun k => Q k k * u k)%R) by (intros k Hk; rewrite (E k k Hk Hk); reflexivity). reflexivity.
Qed.

(** A diagonal covariance, as the training makes. *)
Definition diagonal (K : nat) (M : mat) : Prop :=
  (forall i j, i < K -> j < K -> i <> j -> M i j = 0%R) /\ (forall k, k < K -> (0 < M k k)%R).

(** One turn of a query of the side topic model. *)
Theorem C165_side_query K D T W n inv F X A sigT vocab q d xi : counts D T W n -> covers K T vocab ->
  diagonal K sigT -> is_inverse K sigT (inv sigT) -> doc_sound D K (bq_varcs q) (bq_lxi q) -> d < D ->
  (forall k, k < K -> (0 < xi k)%R /\ bq_lxi q d k = jaakkola (xi k)) ->
  let q' := yquery_iter K T W n (inv sigT) (stm_mean F X A) vocab q in
  (objective K T vocab (stm_mean F X A d) (inv sigT) (W d) (bq_s q d) xi (bq_means q d) (bq_varcs q d)
   <= objective K T vocab (stm_mean F X A d) (inv sigT) (W d) (bq_s q d) xi (bq_means q' d) (bq_varcs q' d))%R.
Proof.
  intros [H0 Hlen] Hv [Hz Hp] HI HS Hd Hxi q'.
  pose proof (diag_inverse K sigT (inv sigT) Hz Hp HI) as E.
  assert (Ed : forall k, k < K -> inv sigT k k = (/ sigT k k)%R) by (intros k Hk; rewrite (E k k Hk Hk); apply diag_at).
  rewrite !(objective_prior K T vocab _ (inv sigT) (diag (fun k => / sigT k k)%R)) by exact E.
  apply (diag_step K T vocab _ (fun k => sigT k k)); try assumption.
  - intros t Ht. apply H0; assumption.
  - intros k Hk. apply Hxi. exact Hk.
  - intros k Hk. apply (HS d k Hd Hk).
  - intros k Hk. unfold q', yquery_iter. cbn [bq_varcs]. rewrite (Ed k Hk), (Hlen d Hd), (proj2 (Hxi k Hk)). unfold Rdiv. rewrite Rmult_1_l. f_equal. ring.
  - intros k Hk. unfold q', yquery_iter. cbn [bq_varcs bq_means].
    rewrite (token_weights_expected K T W (bq_means q) vocab d k Hv), (Ed k Hk), (Hlen d Hd), (proj2 (Hxi k Hk)).
    rewrite (vsum_ext K (fun j => stm_mean F X A d j * inv sigT j k)%R (fun j => diag (fun k => / sigT k k) k j * stm_mean F X A d j)%R).
    2:{ intros j Hj. rewrite (E j k Hj Hk), (diag_symm K _ j k Hj Hk). ring. }
    rewrite diag_dot by exact Hk. unfold Rdiv. rewrite Rmult_1_l.
    replace (/ sigT k k + vsum T (W d) * 2 * jaakkola (xi k))%R with (2 * vsum T (W d) * jaakkola (xi k) + / sigT k k)%R by ring. ring.
Qed.

(** ** C166: the tangents *)
(** With tangents at the roots of the second moments, a query could not lower the
    objective. *)
Theorem C166_best_tangents K D T W n inv F X A sigT vocab q d xi : counts D T W n -> covers K T vocab ->
  diagonal K sigT -> is_inverse K sigT (inv sigT) -> doc_sound D K (bq_varcs q) (bq_lxi q) -> d < D ->
  (forall k, k < K -> (0 < xi k)%R /\ bq_lxi q d k = jaakkola (xi k)) ->
  let q' := yquery_iter K T W n (inv sigT) (stm_mean F X A) vocab q in
  let root k := sqrt ((bq_means q' d k - bq_s q' d) * (bq_means q' d k - bq_s q' d) + bq_varcs q' d k) in
  (objective K T vocab (stm_mean F X A d) (inv sigT) (W d) (bq_s q d) xi (bq_means q d) (bq_varcs q d)
   <= objective K T vocab (stm_mean F X A d) (inv sigT) (W d) (bq_s q' d) root (bq_means q' d) (bq_varcs q' d))%R.
Proof.
  intros HW Hv Hs HI HS Hd Hxi q' root.
  apply (Rle_trans _ _ _ (C165_side_query K D T W n inv F X A sigT vocab q d xi HW Hv Hs HI HS Hd Hxi)). fold q'.
  change (bq_s q' d) with (bq_s q d).
  assert (Hu : forall k, k < K -> (0 < bq_varcs q' d k)%R).
  { intros k Hk. apply (yquery_iter_sound K D T W n); try assumption.
    - intros d0 Hd0. rewrite (proj2 HW d0 Hd0). apply vsum_nonneg. intros t Ht. apply HW; assumption.
    - intros j Hj. rewrite (diag_inverse K sigT (inv sigT) (proj1 Hs) (proj2 Hs) HI j j Hj Hj), diag_at.
      apply Rinv_0_lt_compat, (proj2 Hs). exact Hj. }
  assert (Hr : forall k, k < K -> (0 < (bq_means q' d k - bq_s q d) * (bq_means q' d k - bq_s q d) + bq_varcs q' d k)%R).
  { intros k Hk. pose proof (Rle_0_sqr (bq_means q' d k - bq_s q d)) as Q. unfold Rsqr in Q. pose proof (Hu k Hk). lra. }
  apply tangents_best.
  - intros t Ht. apply HW; assumption.
  - intros k Hk. apply Hxi. exact Hk.
  - intros k Hk. left. apply Hu. exact Hk.
  - intros k Hk. apply sqrt_lt_R0, Hr. exact Hk.
  - intros k Hk. apply sqrt_sqrt. left. apply Hr. exact Hk.
Qed.

(** ** C167: the offset *)
(** What the offset changes of the bound for means [m], curvatures [l] and lengths, with
    tangents fixed. *)
Definition offset_cost (K : nat) (l m : vec) (s : R) : R :=
  (s + vsum K (fun k => (m k - s) / 2 + l k * ((m k - s) * (m k - s))))%R.
Lemma offset_square K (l m : vec) s t : (0 < vsum K l)%R ->
  (offset_cost K l m t - offset_cost K l m s
   = vsum K l * ((t - s) * (t - s)) + (t - s) * (1 - INR K / 2 - 2 * vsum K (fun k => l k * m k) + 2 * s * vsum K l))%R.
Proof.
  intros _. unfold offset_cost.
  replace (t + vsum K (fun k => (m k - t) / 2 + l k * ((m k - t) * (m k - t))) - (s + vsum K (fun k => (m k - s) / 2 + l k * ((m k - s) * (m k - s)))))%R
    with (t - s + (vsum K (fun k => (m k - t) / 2 + l k * ((m k - t) * (m k - t))) - vsum K (fun k => (m k - s) / 2 + l k * ((m k - s) * (m k - s)))))%R by ring.
  rewrite <- vsum_minus.
  rewrite (vsum_ext K _ (fun k => (t - s) * (- (1) / 2) + (l k * ((t - s) * (t + s)) - 2 * (t - s) * (l k * m k)))%R) by (intros; field).
  rewrite vsum_plus, vsum_const, vsum_minus, vsum_scale_r, vsum_scale. field.
Qed.
Lemma new_s_slope K lxi means d : (0 < vsum K (lxi d))%R ->
  (2 * new_s K lxi means d * vsum K (fun k => lxi d k / 2) = vsum K (fun k => lxi d k * means d k) + INR K / 4 - 1 / 2)%R.
Proof.
  intros H. unfold Rdiv at 1. rewrite vsum_scale_r. unfold new_s. field. lra.
Qed.
(** The curvatures of what a query returns, halved, are those of the bound. *)
Lemma query_s K D T W n inv perp last iterations mu sigT vocab q q' : 0 < iterations ->
  bouch_query K D T W n inv perp last iterations mu sigT vocab q = Ok q' -> bq_s q' = new_s K (bq_lxi q') (bq_means q').
Proof.
  intros Hi E. unfold bouch_query in E. destruct (_ && _); [discriminate|]. apply ok_inj in E. destruct iterations as [|m]; [lia|].
  destruct (query_last (bquery_iter K n inv (inv sigT) (ctm_prior K (inv sigT) mu) (token_weights K T W (exp_means K (bq_means q)) vocab)) perp
    (fun _ => True) (fun _ _ => Logic.I) m 0 last q Logic.I) as [q0 [_ E0]].
  rewrite E0 in E. subst q'. reflexivity.
Qed.
Section offset.
  Variables (K D T : nat) (W : mat) (n : vec) (inv : mat -> mat) (perp : mat -> R) (last : R) (iterations : nat) (mu : vec)
    (sigT vocab : mat) (q q' : bquery) (d : nat).
  Hypothesis HK : 0 < K.
  Hypothesis Hi : 0 < iterations.
  Hypothesis Hn : forall d, d < D -> (0 <= n d)%R.
  Hypothesis Hp : forall k, k < K -> (0 < inv sigT k k)%R.
  Hypothesis HS : doc_sound D K (bq_varcs q) (bq_lxi q).
  Hypothesis E : bouch_query K D T W n inv perp last iterations mu sigT vocab q = Ok q'.
  Hypothesis Hd : d < D.
  Let l (k : nat) := (bq_lxi q' d k / 2)%R.

  Lemma half_curvatures : (0 < vsum K l)%R.
  Proof.
    apply vsum_pos; [exact HK|]. intros k Hk. unfold l.
    pose proof (C163_ctm_query K D T W n inv Hn perp last iterations mu sigT vocab q q' Hp HS Hi E d k Hd Hk). lra.
  Qed.
  Lemma offset_difference t : (offset_cost K l (bq_means q' d) t - offset_cost K l (bq_means q' d) (bq_s q' d)
    = vsum K l * ((t - bq_s q' d) * (t - bq_s q' d)) + (t - bq_s q' d) * (1 / 2 - INR K / 4))%R.
  Proof.
    rewrite offset_square by apply half_curvatures. do 2 f_equal.
    pose proof half_curvatures as H. unfold l in H. unfold Rdiv in H. rewrite vsum_scale_r in H.
    pose proof (new_s_slope K (bq_lxi q') (bq_means q') d ltac:(lra)) as S0. rewrite <- (query_s _ _ _ _ _ _ _ _ _ _ _ _ _ _ Hi E) in S0.
    change (fun k => (bq_lxi q' d k / 2)%R) with l in S0. rewrite S0.
    rewrite (vsum_ext K (fun k => l k * bq_means q' d k)%R (fun k => bq_lxi q' d k * bq_means q' d k * / 2)%R) by (intros; unfold l; field).
    rewrite vsum_scale_r. field.
  Qed.
  (** With two topics the returned offset is the best. *)
  Theorem C167_two_topics t : K = 2 -> (offset_cost K l (bq_means q' d) (bq_s q' d) <= offset_cost K l (bq_means q' d) t)%R.
  Proof.
    intros EK. pose proof (offset_difference t) as O. pose proof half_curvatures. rewrite EK in O at 4. cbn [INR] in O.
    pose proof (Rle_0_sqr (t - bq_s q' d)) as Q. unfold Rsqr in Q. pose proof (Rmult_le_pos (vsum K l) _ ltac:(lra) Q). lra.
  Qed.
  (** With more there is always a better one. *)
  Theorem C167_more_topics : 2 < K -> exists t, (offset_cost K l (bq_means q' d) t < offset_cost K l (bq_means q' d) (bq_s q' d))%R.
  Proof.
    intros HK2. set (b := (INR K / 4 - 1 / 2)%R). pose proof half_curvatures as HL.
    assert (Hb : (0 < b)%R) by (unfold b; apply (lt_INR 2 K) in HK2; cbn [INR] in HK2; lra).
    exists (bq_s q' d + b / (2 * vsum K l))%R.
    pose proof (offset_difference (bq_s q' d + b / (2 * vsum K l))) as O.
    replace (bq_s q' d + b / (2 * vsum K l) - bq_s q' d)%R with (b / (2 * vsum K l))%R in O by ring.
    replace (1 / 2 - INR K / 4)%R with (- b)%R in O by (unfold b; ring).
    replace (vsum K l * (b / (2 * vsum K l) * (b / (2 * vsum K l))) + b / (2 * vsum K l) * - b)%R with (- (b * b / (4 * vsum K l)))%R in O by (field; lra).
    assert (0 < b * b / (4 * vsum K l))%R by (apply Rdiv_lt_0_compat; [apply Rmult_lt_0_compat; exact Hb|lra]). lra.
  Qed.
End offset.

(** Inverses of diagonal matrices. *)
Definition inv_diag (M : mat) : mat := diag (fun k => / M k k)%R.
Lemma inv_diag_ok K M : diagonal K M -> is_inverse K M (inv_diag M).
Proof.
  intros [Hz Hp] i j Hi Hj. rewrite (vsum_ext K _ (fun l => eye i l * (M l l * inv_diag M l j))%R).
  - rewrite (vsum_eye K i (fun l => M l l * inv_diag M l j)%R Hi). unfold inv_diag, diag, eye. pose proof (Hp i Hi).
    destruct (Nat.eqb_spec i j) as [->|]; [field; lra|ring].
  - intros l Hl. unfold eye. destruct (Nat.eqb_spec i l) as [->|Hne]; [ring|]. rewrite (Hz i l Hi Hl Hne). ring.
Qed.
Lemma eye_diagonal K : diagonal K eye.
Proof.
  split; [intros i j _ _ H; unfold eye; destruct (Nat.eqb_spec i j); [contradiction|reflexivity]|].
  intros k _. unfold eye. rewrite Nat.eqb_refl. lra.
Qed.
Definition one_word : mat := fun _ _ => 1%R.
Definition one_len : vec := fun _ => 1%R.
Lemma one_counts D : counts D 1 one_word one_len.
Proof. split; [intros; unfold one_word; lra|]. intros d _. unfold one_len, one_word. two. ring. Qed.
Lemma one_dist : positive_dist 1 (fun _ => 1%R).
Proof. split; [intros; lra|two; ring]. Qed.
Lemma one_covers K : 0 < K -> covers K 1 one_word.
Proof. intros HK. apply positive_covers; [exact HK|]. intros. exact one_dist. Qed.
Definition fresh_query (means : mat) : bquery :=
  {| bq_means := means; bq_varcs := ones; bq_lxi := lxi_of means ones (fun _ => 0%R); bq_s := fun _ => 0%R |}.
Lemma fresh_sound D K means : doc_sound D K (bq_varcs (fresh_query means)) (bq_lxi (fresh_query means)).
Proof. intros d k _ _. cbn [bq_varcs bq_lxi fresh_query]. split; [unfold ones; lra|]. apply lxi_range. unfold ones. lra. Qed.

Theorem C167_best_offset_refuted : exists K D T W n inv perp last mu sigT vocab q q' t, counts D T W n /\ covers K T vocab /\
  (forall M, diagonal K M -> is_inverse K M (inv M)) /\ diagonal K sigT /\ doc_sound D K (bq_varcs q) (bq_lxi q) /\
  bouch_query K D T W n inv perp last 1 mu sigT vocab q = Ok q' /\
  (offset_cost K (fun k => bq_lxi q' 0%nat k / 2) (bq_means q' 0%nat) t < offset_cost K (fun k => bq_lxi q' 0%nat k / 2) (bq_means q' 0%nat) (bq_s q' 0%nat))%R.
Proof.
  assert (exists q', bouch_query 3 2 1 one_word one_len inv_diag (fun _ => 0%R) 0%R 1 (fun _ => 0%R) eye one_word (fresh_query zeros) = Ok q')
    as [q' E] by (eexists; reflexivity).
  destruct (C167_more_topics 3 2 1 one_word one_len inv_diag (fun _ => 0%R) 0%R 1 (fun _ => 0%R) eye one_word (fresh_query zeros) q' 0
    ltac:(lia) ltac:(lia) ltac:(intros; unfold one_len; lra)
    ltac:(intros k Hk; unfold inv_diag; rewrite diag_at; unfold eye; rewrite Nat.eqb_refl; lra) (fresh_sound 2 3 zeros) E ltac:(lia) ltac:(lia)) as [t Ht].
  exists 3, 2, 1, one_word, one_len, inv_diag, (fun _ => 0%R), 0%R, (fun _ => 0%R), eye, one_word, (fresh_query zeros), q', t.
  split; [apply one_counts|]. split; [apply one_covers; lia|]. split; [apply inv_diag_ok|]. split; [apply eye_diagonal|].
  split; [apply fresh_sound|]. split; [exact E|exact Ht].
Qed.

(** ** C166, refuted: a query that lowers the objective *)
Definition half_prior : R := (1 / 4 - 2 * jaakkola 2)%R.
Lemma half_prior_pos : (0 < half_prior)%R.
Proof. unfold half_prior. pose proof (jaakkola_below 2 ltac:(lra)). lra. Qed.
Definition wide_sigT : mat := diag (fun _ => / half_prior)%R.
Definition wide_query : bquery := {| bq_means := zeros; bq_varcs := fun _ _ => 4%R; bq_lxi := fun _ _ => jaakkola 2; bq_s := fun _ => 0%R |}.
Lemma one_expected m k : k < 2 -> m 0 = m 1 -> expected 2 1 one_word (one_word 0) m k = (1 / 2)%R.
Proof.
  intros Hk Em. unfold expected, mass, one_word. two. pose proof (exp_pos (m 0)). destruct k as [|[|]]; [| |lia]; rewrite Em in *; field; lra.
Qed.
Theorem C166_query_improves_refuted : exists K D T W n inv F X A sigT vocab q xi d, counts D T W n /\ covers K T vocab /\
  diagonal K sigT /\ is_inverse K sigT (inv sigT) /\ doc_sound D K (bq_varcs q) (bq_lxi q) /\ d < D /\
  (forall k, k < K -> (0 < xi k)%R /\ bq_lxi q d k = jaakkola (xi k)) /\
  let q' := yquery_iter K T W n (inv sigT) (stm_mean F X A) vocab q in
  let xi' k := derive_xi (bq_means q' d k) (bq_varcs q' d k) (bq_s q' d) in
  (forall k, k < K -> bq_lxi q' d k = jaakkola (xi' k)) /\
  (objective K T vocab (stm_mean F X A d) (inv sigT) (W d) (bq_s q' d) xi' (bq_means q' d) (bq_varcs q' d)
   < objective K T vocab (stm_mean F X A d) (inv sigT) (W d) (bq_s q d) xi (bq_means q d) (bq_varcs q d))%R.
Proof.
  exists 2, 2, 1, one_word, one_len, inv_diag, 1, zeros, zeros, wide_sigT, one_word, wide_query, (fun _ => 2%R), 0.
  pose proof half_prior_pos as HP.
  assert (HD : diagonal 2 wide_sigT).
  { split; [intros i j _ _ H; unfold wide_sigT, diag; destruct (Nat.eqb_spec i j); [contradiction|reflexivity]|].
    intros k _. unfold wide_sigT. rewrite diag_at. apply Rinv_0_lt_compat. exact HP. }
  split; [apply one_counts|]. split; [apply one_covers; lia|]. split; [exact HD|]. split; [apply inv_diag_ok; exact HD|].
  split; [intros d k _ _; cbn [bq_varcs bq_lxi wide_query]; pose proof (jaakkola_pos 2 ltac:(lra)); lra|].
  split; [lia|]. split; [intros; split; [lra|reflexivity]|]. cbv zeta.
  assert (HI : forall k, inv_diag wide_sigT k k = half_prior).
  { intros k. unfold inv_diag. rewrite diag_at. unfold wide_sigT. rewrite diag_at. apply Rinv_inv. }
  set (q' := yquery_iter 2 1 one_word one_len (inv_diag wide_sigT) (stm_mean 1 zeros zeros) one_word wide_query).
  assert (EV : forall k, k < 2 -> bq_varcs q' 0%nat k = 4%R).
  { intros k Hk. unfold q', yquery_iter. cbn [bq_varcs bq_lxi wide_query]. rewrite HI. unfold one_len, half_prior. field. lra. }
  assert (EM : forall k, k < 2 -> bq_means q' 0%nat k = 0%R).
  { intros k Hk. unfold q', yquery_iter. cbn [bq_means bq_lxi bq_s wide_query].
    rewrite (token_weights_expected 2 1 one_word zeros one_word 0 k (one_covers 2 ltac:(lia))), one_expected by (try exact Hk; reflexivity).
    unfold stm_mean, zeros, one_len. two. field. rewrite HI. pose proof (jaakkola_pos 2 ltac:(lra)). lra. }
  change (bq_s q' 0%nat) with 0%R.
  assert (EX : forall k, k < 2 -> derive_xi (bq_means q' 0%nat k) (bq_varcs q' 0%nat k) 0 = 4%R).
  { intros k Hk. rewrite (EM k Hk), (EV k Hk). unfold derive_xi. replace (0 * 0 - 2 * 0 * 0 + 0 * 0 + 4 * 4)%R with (4 * 4)%R by ring. apply sqrt_square. lra. }
  split.
  - intros k Hk. rewrite (EX k Hk). change (bq_lxi q' 0%nat k) with (neg_jakkola (derive_xi (bq_means q' 0%nat k) (bq_varcs q' 0%nat k) 0)).
    rewrite (EX k Hk). apply neg_jakkola_is. lra.
  - pose proof (tangent_strict 4 ltac:(lra) 2 ltac:(lra) ltac:(lra)) as TS. unfold half_log in TS.
    unfold objective, bouchard, quad. two. rewrite !EX, !EM, !EV by lia.
    cbn [bq_means bq_varcs bq_s wide_query]. unfold zeros, one_word, stm_mean. two. nra.
Qed.

(** ** C168: the first topic *)
Theorem C168_first_topic K D T W n beta oas perp logFrequency iterations st out : 0 < iterations ->
  bouch_train K D T W n beta oas perp logFrequency iterations st = Ok out -> forall d, b_means out d 0 = 0%R.
Proof.
  intros Hi E d. unfold bouch_train in E.
  destruct (train_last _ _ _ _ _ (fun _ => True) (bouch_start st) out (fun _ _ _ _ => Logic.I) Logic.I Hi E) as [st0 [_ E0]].
  destruct (bouch_iter_shape _ _ _ _ _ _ _ _ _ E0) as (_ & _ & _ & _ & _ & _ & raw & Em & _). rewrite Em. ring.
Qed.
Theorem C168_prior_of_first_topic K D T W n beta oas perp logFrequency iterations st out : 1 < iterations ->
  bouch_train K D T W n beta oas perp logFrequency iterations st = Ok out -> b_mean out 0 = 0%R.
Proof.
  intros Hi E. unfold bouch_train, log_train in E. destruct (logFrequency =? 0); [discriminate|].
  destruct iterations as [|[|m]]; [lia|lia|]. remember (S m) as todo. cbn [log_loop] in E. subst todo.
  destruct (bouch_iter K D T W n beta oas (bouch_start st)) as [st1|e] eqn:E1; cbn [bind] in E; [|discriminate].
  assert (H1 : forall d, b_means st1 d 0 = 0%R).
  { intros d. destruct (bouch_iter_shape _ _ _ _ _ _ _ _ _ E1) as (_ & _ & _ & _ & _ & _ & raw & Em & _). rewrite Em. ring. }
  assert (Hstep : forall s1 s2, (forall d, b_means s1 d 0 = 0%R) -> bouch_iter K D T W n beta oas s1 = Ok s2 -> forall d, b_means s2 d 0 = 0%R).
  { intros s1 s2 _ E2 d. destruct (bouch_iter_shape _ _ _ _ _ _ _ _ _ E2) as (_ & _ & _ & _ & _ & _ & raw & Em & _). rewrite Em. ring. }
  assert (L : exists idx lst, log_loop (bouch_iter K D T W n beta oas) perp 30 (S (S m) / logFrequency) logFrequency 1 (S m) idx lst st1 = Ok out).
  { destruct (0 mod logFrequency =? 0); [|eexists _, _; exact E]. destruct (_ <=? 0); [discriminate|]. cbn [Nat.ltb Nat.leb andb] in E. eexists _, _; exact E. }
  destruct L as (idx & lst & L).
  destruct (loop_last _ _ _ _ _ (fun st => forall d, b_means st d 0 = 0%R) Hstep _ _ _ _ _ _ H1 L) as [st0 [HI E0]].
  destruct (bouch_iter_shape _ _ _ _ _ _ _ _ _ E0) as (_ & _ & Emu & _). rewrite Emu. unfold niw_mean.
  rewrite (vsum_ext D _ (fun _ => 0%R)) by (intros; apply HI). rewrite vsum_zero. unfold Rdiv. ring.
Qed.

Definition apart (swap : bool) : bouch :=
  {| b_mean := fun _ => 0%R; b_sigT := eye; b_vocab := one_word;
     b_means := fun d k => if xorb swap (d =? k) then 1%R else 0%R; b_varcs := ones; b_lxi := fun _ _ => (1 / 4)%R; b_s := fun _ => 0%R |}.
(** The two topics change places in the start; they do not in the result. *)
Theorem C168_relabelling_refuted : exists D T W n beta oas perp st st' out out', counts D T W n /\
  (forall k, k < 2 -> positive_dist T (b_vocab st k)) /\ doc_sound D 2 (b_varcs st) (b_lxi st) /\
  (forall d k, d < D -> k < 2 -> b_means st' d k = b_means st d (1 - k)) /\ (forall k t, k < 2 -> t < T -> b_vocab st' k t = b_vocab st (1 - k) t) /\
  (forall d k, d < D -> k < 2 -> b_varcs st' d k = b_varcs st d (1 - k) /\ b_lxi st' d k = b_lxi st d (1 - k)) /\
  (forall m, oas m = zeros) /\
  bouch_train 2 D T W n beta oas perp 1 1 st = Ok out /\ bouch_train 2 D T W n beta oas perp 1 1 st' = Ok out' /\
  ~ (forall d k, d < D -> k < 2 -> b_means out' d k = b_means out d (1 - k)).
Proof.
  assert (R1 : forall b, exists out, bouch_train 2 2 1 one_word one_len 1 (fun _ => zeros) (fun _ => 0%R) 1 1 (apart b) = Ok out /\
    bouch_iter 2 2 1 one_word one_len 1 (fun _ => zeros) (bouch_start (apart b)) = Ok out).
  { intros b. eexists. split; reflexivity. }
  destruct (R1 false) as (out & E & E1). destruct (R1 true) as (out' & E' & _).
  exists 2, 1, one_word, one_len, 1%R, (fun _ => zeros), (fun _ => 0%R), (apart false), (apart true), out, out'.
  split; [apply one_counts|]. split; [intros; exact one_dist|].
  split; [intros d k _ _; cbn [apart b_varcs b_lxi]; unfold ones; lra|].
  split; [intros d k Hd Hk; cbn [apart b_means]; destruct d as [|[|]], k as [|[|]]; try lia; reflexivity|].
  split; [reflexivity|]. split; [intros; split; reflexivity|]. split; [reflexivity|]. split; [exact E|]. split; [exact E'|].
  intros H. pose proof (H 0 0 ltac:(lia) ltac:(lia)) as H0. rewrite (C168_first_topic _ _ _ _ _ _ _ _ _ _ _ _ (Nat.lt_0_succ 0) E') in H0. cbn [Nat.sub] in H0.
  destruct (bouch_iter_shape _ _ _ _ _ _ _ _ _ E1) as (_ & _ & Emu & Esig & Evoc & Evar & raw & Em & Eraw).
  assert (HV : forall k, k < 2 -> positive_dist 1 (b_vocab out k)).
  { rewrite Evoc. apply (update_dist 2 2 1 one_word one_len 1); [lia|lia|lra|apply one_counts|apply one_covers; lia]. }
  assert (HV1 : forall k, k < 2 -> b_vocab out k 0%nat = 1%R).
  { intros k Hk. destruct (HV k Hk) as [_ Hs]. revert Hs. two. lra. }
  assert (Hmu : b_mean out 0 = b_mean out 1).
  { rewrite Emu. unfold niw_mean. f_equal. cbn [bouch_start apart b_means]. two. cbn [Nat.eqb xorb]. ring. }
  assert (Hsig : b_sigT out 0%nat 0%nat = b_sigT out 1%nat 1%nat).
  { rewrite Esig, !diag_at. unfold niw_diag. rewrite Hmu. reflexivity. }
  assert (Hsp : (0 < b_sigT out 1%nat 1%nat)%R).
  { rewrite Esig, diag_at. apply niw_diag_pos; [lia|intros; unfold zeros; lra|intros; cbn [bouch_start apart b_varcs]; unfold ones; lra|lia]. }
  rewrite Em, !Eraw in H0 by lia. rewrite !Evar, Hsig, Hmu in H0.
  rewrite !(token_weights_expected 2 1 one_word _ _ 0 _ (positive_covers 2 1 _ ltac:(lia) HV)) in H0.
  cbn [bouch_start apart b_lxi b_s b_means] in H0. unfold expected, mass, one_word, one_len in H0. revert H0. two. cbn [Nat.eqb xorb]. rewrite !HV1 by lia.
  rewrite exp_0. pose proof (exp_ineq1 1 ltac:(lra)) as He. intros H0.
  set (u := (/ (1 * (1 / 4) + / b_sigT out 1%nat 1%nat))%R) in *.
  assert (Hu : (0 < u)%R) by (apply Rinv_0_lt_compat; pose proof (Rinv_0_lt_compat _ Hsp); lra).
  assert (X : (u * ((1 - exp 1) / (exp 1 + 1)) = 0)%R).
  { etransitivity; [|symmetry; exact H0]. field. lra. }
  apply Rmult_integral in X as [X|X]; [lra|]. apply Rmult_integral in X as [X|X]; [lra|].
  pose proof (Rinv_0_lt_compat (exp 1 + 1) ltac:(lra)). lra.
Qed.

(** ** C169: the number of iterations *)
Lemma loop_finishes {St} (iter : St -> res St) perp least size f : 0 < f -> (forall st, exists st', iter st = Ok st') ->
  forall todo itr idx last st, itr + todo = size * f -> idx = (itr + f - 1) / f ->
  exists out, log_loop iter perp least size f itr todo idx last st = Ok out.
Proof.
  intros Hf Hit. induction todo as [|todo IH]; intros itr idx last st Ht Hidx; [exists st; reflexivity|]. cbn [log_loop].
  destruct (Hit st) as [st' E]. rewrite E. cbn [bind].
  pose proof (Nat.div_mod itr f ltac:(lia)) as DM. pose proof (Nat.mod_upper_bound itr f ltac:(lia)) as MB.
  assert (Hnext : (S itr + f - 1) / f = itr / f + 1).
  { replace (S itr + f - 1) with (itr + 1 * f) by lia. apply Nat.div_add. lia. }
  destruct (Nat.eqb_spec (itr mod f) 0) as [Hm|Hm].
  - assert (Hi : (itr + f - 1) / f = itr / f).
    { symmetry. apply (Nat.div_unique (itr + f - 1) f (itr / f) (f - 1)); lia. }
    assert (Hlt : itr / f < size).
    { apply Nat.div_lt_upper_bound; [lia|]. rewrite (Nat.mul_comm f size). lia. }
    destruct (Nat.leb_spec size idx) as [Hle|_]; [exfalso; rewrite Hidx, Hi in Hle; lia|].
    destruct (_ && _ && _); [eexists; reflexivity|]. apply IH; [lia|]. rewrite Hnext, Hidx, Hi. lia.
  - apply IH; [lia|]. rewrite Hnext, Hidx. symmetry. apply (Nat.div_unique (itr + f - 1) f (itr / f + 1) (itr mod f - 1)); nia.
Qed.
Lemma loop_overruns {St} (iter : St -> res St) perp least size f : 0 < f ->
  (forall st, (exists st', iter st = Ok st') \/ iter st = Raise IndexError) -> size * f <= least ->
  forall todo itr idx last st, itr <= size * f -> size * f < itr + todo -> idx = (itr + f - 1) / f ->
  log_loop iter perp least size f itr todo idx last st = Raise IndexError.
Proof.
  intros Hf Hit Hl. induction todo as [|todo IH]; intros itr idx last st H1 H2 Hidx; [lia|]. cbn [log_loop].
  destruct (Hit st) as [[st' E]|E]; rewrite E; cbn [bind]; [|reflexivity].
  pose proof (Nat.div_mod itr f ltac:(lia)) as DM. pose proof (Nat.mod_upper_bound itr f ltac:(lia)) as MB.
  assert (Hnext : (S itr + f - 1) / f = itr / f + 1).
  { replace (S itr + f - 1) with (itr + 1 * f) by lia. apply Nat.div_add. lia. }
  destruct (Nat.eqb_spec (itr mod f) 0) as [Hm|Hm].
  - assert (Hi : (itr + f - 1) / f = itr / f).
    { symmetry. apply (Nat.div_unique (itr + f - 1) f (itr / f) (f - 1)); lia. }
    destruct (Nat.leb_spec size idx) as [Hle|Hgt]; [reflexivity|]. rewrite Hidx, Hi in Hgt.
    assert (itr < size * f) by nia.
    destruct (Nat.leb_spec least itr); [lia|]. rewrite andb_false_r. cbn [andb]. apply IH; [lia|lia|]. rewrite Hnext, Hidx, Hi. lia.
  - assert (itr <> size * f) by (intros ->; rewrite Nat.mod_mul in Hm by lia; lia).
    apply IH; [lia|lia|]. rewrite Hnext, Hidx. symmetry. apply (Nat.div_unique (itr + f - 1) f (itr / f + 1) (itr mod f - 1)); nia.
Qed.
Lemma train_finishes {St} (iter : St -> res St) perp least f iterations st : 0 < f -> (forall st, exists st', iter st = Ok st') ->
  iterations mod f = 0 -> exists out, log_train iter perp least f iterations st = Ok out.
Proof.
  intros Hf Hit Hm. unfold log_train. destruct (Nat.eqb_spec f 0); [lia|]. apply loop_finishes; [exact Hf|exact Hit| |].
  - pose proof (Nat.div_mod iterations f ltac:(lia)). nia.
  - symmetry. apply Nat.div_small. lia.
Qed.
Lemma train_overruns {St} (iter : St -> res St) perp least f iterations st : 0 < f ->
  (forall st, (exists st', iter st = Ok st') \/ iter st = Raise IndexError) ->
  iterations mod f <> 0 -> iterations / f * f <= least -> log_train iter perp least f iterations st = Raise IndexError.
Proof.
  intros Hf Hit Hm Hl. unfold log_train. destruct (Nat.eqb_spec f 0); [lia|]. apply loop_overruns; [exact Hf|exact Hit|exact Hl|apply Nat.le_0_l| |].
  - pose proof (Nat.div_mod iterations f ltac:(lia)). nia.
  - symmetry. apply Nat.div_small. lia.
Qed.
(** Some number of documents other than one; any measurements. *)
Theorem C169_ctm_multiple K D T W n beta oas perp logFrequency iterations st : D <> 1 -> 0 < logFrequency ->
  iterations mod logFrequency = 0 -> exists out, bouch_train K D T W n beta oas perp logFrequency iterations st = Ok out.
Proof.
  intros HD Hf Hm. apply train_finishes; [exact Hf| |exact Hm]. intros st0. unfold bouch_iter.
  destruct (Nat.eqb_spec D 1); [contradiction|]. eexists. reflexivity.
Qed.
Theorem C169_side_multiple K D T W n beta inv F P fv lfv X perp logFrequency iterations st : D <> 1 -> 0 < logFrequency ->
  iterations mod logFrequency = 0 -> exists out, yv_train K D T W n beta inv F P fv lfv X false perp logFrequency iterations st = Ok out.
Proof.
  intros HD Hf Hm. apply train_finishes; [exact Hf| |exact Hm]. intros st0. unfold yv_iter.
  destruct (Nat.eqb_spec D 1); [contradiction|]. eexists. reflexivity.
Qed.
Theorem C169_ctm_not_multiple K D T W n beta oas perp logFrequency iterations st : 0 < logFrequency ->
  iterations mod logFrequency <> 0 -> iterations / logFrequency * logFrequency <= 30 ->
  bouch_train K D T W n beta oas perp logFrequency iterations st = Raise IndexError.
Proof.
  intros Hf Hm Hl. apply train_overruns; [exact Hf| |exact Hm|exact Hl]. intros st0. unfold bouch_iter.
  destruct (D =? 1); [right; reflexivity|left; eexists; reflexivity].
Qed.
Theorem C169_side_not_multiple K D T W n beta inv F P fv lfv X perp logFrequency iterations st : 0 < logFrequency ->
  iterations mod logFrequency <> 0 -> iterations / logFrequency * logFrequency <= 51 ->
  yv_train K D T W n beta inv F P fv lfv X false perp logFrequency iterations st = Raise IndexError.
Proof.
  intros Hf Hm Hl. apply train_overruns; [exact Hf| |exact Hm|exact Hl]. intros st0. unfold yv_iter.
  destruct (D =? 1); [right; reflexivity|left; eexists; reflexivity].
Qed.
Theorem C169_never_logging K D T W n beta oas inv F P fv lfv X debug perp perp' iterations st st' :
  bouch_train K D T W n beta oas perp 0 iterations st = Raise ZeroDivisionError /\
  yv_train K D T W n beta inv F P fv lfv X debug perp' 0 iterations st' = Raise ZeroDivisionError.
Proof. split; reflexivity. Qed.
Theorem C169_any_iterations_refuted : exists K D T W n beta oas perp st iterations, counts D T W n /\ (0 < beta)%R /\ (forall m, oas m = eye) /\
  (forall k, k < K -> positive_dist T (b_vocab st k)) /\ doc_sound D K (b_varcs st) (b_lxi st) /\ 1 < K /\ 1 < D /\ 0 < iterations /\
  bouch_train K D T W n beta oas perp 10 iterations st = Raise IndexError.
Proof.
  exists 2, 2, 1, one_word, one_len, 1%R, (fun _ => eye), (fun _ => 0%R), (apart false), 25.
  split; [apply one_counts|]. split; [lra|]. split; [reflexivity|]. split; [intros; exact one_dist|].
  split; [intros d k _ _; cbn [apart b_varcs b_lxi]; unfold ones; lra|]. do 3 (split; [lia|]).
  apply C169_ctm_not_multiple; [lia|vm_compute; discriminate|vm_compute; lia].
Qed.

(** ** C170: queries and the posterior *)
Lemma level_like a : log_like 2 1 one_word (one_word 0) (fun _ => a) = 0%R.
Proof.
  unfold log_like, softmax, one_word. two. pose proof (exp_pos a).
  replace (exp a / (exp a + (exp a + 0)) * 1 + (exp a / (exp a + (exp a + 0)) * 1 + 0))%R with 1%R by (field; lra). rewrite ln_1. ring.
Qed.
Lemma level_posterior m a P : (forall k, k < 2 -> m k = a) -> (forall i j, i < 2 -> j < 2 -> P i j = eye i j) ->
  log_posterior 2 1 one_word (fun _ => 1%R) P (one_word 0) m = (- ((a - 1) * (a - 1)))%R.
Proof.
  intros Hm HP. unfold log_posterior.
  assert (E : log_like 2 1 one_word (one_word 0) m = 0%R).
  { rewrite <- (level_like a). unfold log_like. apply vsum_ext. intros t _. do 2 f_equal. apply vsum_ext. intros k Hk. f_equal.
    unfold softmax. rewrite (Hm k Hk). f_equal. apply vsum_ext. intros j Hj. rewrite (Hm j Hj). reflexivity. }
  rewrite E, (quad_ext 2 P eye (fun k => m k - 1)%R (fun k => m k - 1)%R (fun _ => a - 1)%R (fun _ => a - 1)%R HP) by (intros; rewrite Hm by assumption; reflexivity).
  unfold quad, eye. two. cbn [Nat.eqb]. field.
Qed.
Definition level_query : bquery := {| bq_means := ones; bq_varcs := ones; bq_lxi := lxi_of ones ones (fun _ => 0%R); bq_s := fun _ => 0%R |}.
Lemma inv_diag_eye i j : inv_diag eye i j = eye i j.
Proof. unfold inv_diag, diag, eye. rewrite Nat.eqb_refl. destruct (i =? j); [field|reflexivity]. Qed.

(** The side topic model: any number of iterations makes things worse. *)
Theorem C170_side_query_refuted : exists K D T W n inv F X A sigT vocab q d, counts D T W n /\ covers K T vocab /\ diagonal K sigT /\
  (forall M, diagonal K M -> is_inverse K M (inv M)) /\ doc_sound D K (bq_varcs q) (bq_lxi q) /\ d < D /\
  forall perp last iterations, 0 < iterations -> exists q', yv_query K D T W n inv F X false perp last iterations A sigT vocab q = Ok q' /\
  (log_posterior K T vocab (stm_mean F X A d) (inv sigT) (W d) (bq_means q' d) < log_posterior K T vocab (stm_mean F X A d) (inv sigT) (W d) (bq_means q d))%R.
Proof.
  exists 2, 2, 1, one_word, one_len, inv_diag, 1, ones, ones, eye, one_word, level_query, 0.
  split; [apply one_counts|]. split; [apply one_covers; lia|]. split; [apply eye_diagonal|]. split; [apply inv_diag_ok|].
  split; [apply (fresh_sound 2 2 ones)|]. split; [lia|]. intros perp last iterations Hi.
  unfold yv_query. destruct (Nat.eqb_spec iterations 0); [lia|]. cbn [Nat.eqb]. eexists. split; [reflexivity|].
  destruct iterations as [|todo]; [lia|].
  assert (Hmu : forall d k, stm_mean 1 ones ones d k = 1%R) by (intros; unfold stm_mean, ones; two; ring).
  set (I := fun q : bquery => bq_means q 0%nat 0%nat = bq_means q 0%nat 1%nat /\ bq_varcs q 0%nat 0%nat = bq_varcs q 0%nat 1%nat /\
     bq_lxi q 0%nat 0%nat = bq_lxi q 0%nat 1%nat /\ (0 < bq_lxi q 0%nat 0%nat)%R /\ bq_s q 0 = 0%R).
  assert (Hm : forall q, I q -> forall k, k < 2 ->
    bq_means (yquery_iter 2 1 one_word one_len (inv_diag eye) (stm_mean 1 ones ones) one_word q) 0%nat k = (/ (1 + 2 * bq_lxi q 0%nat 0%nat))%R).
  { intros q (I1 & I2 & I3 & I4 & I5) k Hk. unfold yquery_iter. cbn [bq_means].
    rewrite (token_weights_expected 2 1 one_word (bq_means q) one_word 0 k (one_covers 2 ltac:(lia))), one_expected by assumption.
    rewrite (vsum_ext 2 _ (fun j => eye j k)) by (intros; rewrite inv_diag_eye, Hmu; ring).
    rewrite inv_diag_eye, I5. assert (El : bq_lxi q 0%nat k = bq_lxi q 0%nat 0%nat) by (destruct k as [|[|]]; [reflexivity|congruence|lia]).
    rewrite El. unfold one_len. destruct k as [|[|]]; [| |lia]; two; unfold eye; cbn [Nat.eqb]; field; lra. }
  assert (HI : forall q, I q -> I (yquery_iter 2 1 one_word one_len (inv_diag eye) (stm_mean 1 ones ones) one_word q)).
  { intros q Hq. pose proof Hq as (I1 & I2 & I3 & I4 & I5). pose proof (Hm q Hq) as E.
    set (q' := yquery_iter _ _ _ _ _ _ _ _) in *.
    assert (Hv : forall k, k < 2 -> bq_varcs q' 0%nat k = (/ (1 + 2 * bq_lxi q 0%nat 0%nat))%R).
    { intros k Hk. unfold q', yquery_iter. cbn [bq_varcs]. rewrite inv_diag_eye. unfold eye, one_len. rewrite Nat.eqb_refl.
      assert (El : bq_lxi q 0%nat k = bq_lxi q 0%nat 0%nat) by (destruct k as [|[|]]; [reflexivity|congruence|lia]). rewrite El. field. lra. }
    assert (Hvp : (0 < bq_varcs q' 0%nat 0%nat)%R) by (rewrite Hv by lia; apply Rinv_0_lt_compat; lra).
    assert (El : forall k, bq_lxi q' 0%nat k = neg_jakkola (derive_xi (bq_means q' 0%nat k) (bq_varcs q' 0%nat k) (bq_s q' 0))) by reflexivity.
    unfold I. split; [rewrite !E by lia; reflexivity|]. split; [rewrite !Hv by lia; reflexivity|].
    split; [rewrite !El, !E, !Hv by lia; reflexivity|]. split; [|exact I5].
    rewrite El. pose proof (xi_pos (bq_means q' 0%nat 0%nat) (bq_varcs q' 0%nat 0%nat) (bq_s q' 0) Hvp).
    rewrite neg_jakkola_is by lra. apply jaakkola_pos. assumption. }
  assert (I0 : I level_query).
  { unfold I. repeat split. pose proof (fresh_sound 2 2 ones 0 0 ltac:(lia) ltac:(lia)) as S. apply S. }
  destruct (query_last _ perp I HI todo 0 last level_query I0) as [q0 [Hq0 E0]]. rewrite E0.
  pose proof (Hm q0 Hq0) as E. destruct Hq0 as (_ & _ & _ & Hl & _). set (a := (/ (1 + 2 * bq_lxi q0 0%nat 0%nat))%R) in *.
  change (stm_mean 1 ones ones 0) with (fun k : nat => stm_mean 1 ones ones 0 k).
  assert (Emu : forall m, log_posterior 2 1 one_word (stm_mean 1 ones ones 0) (inv_diag eye) (one_word 0) m
    = log_posterior 2 1 one_word (fun _ => 1%R) (inv_diag eye) (one_word 0) m).
  { intros m. unfold log_posterior. do 2 f_equal. apply quad_ext; intros; rewrite ?Hmu; reflexivity. }
  rewrite !Emu, (level_posterior _ a _ E (fun i j _ _ => inv_diag_eye i j)), (level_posterior (bq_means level_query 0) 1 _ (fun _ _ => eq_refl) (fun i j _ _ => inv_diag_eye i j)).
  assert (Ha : (a < 1)%R) by (unfold a; rewrite <- Rinv_1; apply Rinv_lt_contravar; lra). nra.
Qed.
(** The correlated topic model, likewise. *)
Theorem C170_ctm_query_refuted : exists K D T W n inv mu sigT vocab q d, counts D T W n /\ covers K T vocab /\ diagonal K sigT /\
  (forall M, diagonal K M -> is_inverse K M (inv M)) /\ doc_sound D K (bq_varcs q) (bq_lxi q) /\ d < D /\
  forall perp last iterations, 0 < iterations -> exists q', bouch_query K D T W n inv perp last iterations mu sigT vocab q = Ok q' /\
  (log_posterior K T vocab mu (inv sigT) (W d) (bq_means q' d) < log_posterior K T vocab mu (inv sigT) (W d) (bq_means q d))%R.
Proof.
  exists 2, 2, 1, one_word, one_len, inv_diag, (fun _ => 1%R), eye, one_word, level_query, 0.
  split; [apply one_counts|]. split; [apply one_covers; lia|]. split; [apply eye_diagonal|]. split; [apply inv_diag_ok|].
  split; [apply (fresh_sound 2 2 ones)|]. split; [lia|]. intros perp last iterations Hi.
  unfold bouch_query. cbn [Nat.eqb andb]. eexists. split; [reflexivity|].
  destruct iterations as [|todo]; [lia|].
  set (prior := ctm_prior 2 (inv_diag eye) (fun _ => 1%R)). set (S := token_weights 2 1 one_word (exp_means 2 (bq_means level_query)) one_word).
  assert (HP : forall d k, k < 2 -> prior d k = 1%R).
  { intros d k Hk. unfold prior, ctm_prior. rewrite (vsum_ext 2 _ (fun j => eye k j)) by (intros; rewrite inv_diag_eye; ring).
    destruct k as [|[|]]; [| |lia]; two; unfold eye; cbn [Nat.eqb]; ring. }
  assert (HS : forall k, k < 2 -> S 0%nat k = (1 / 2)%R).
  { intros k Hk. unfold S. rewrite (token_weights_expected 2 1 one_word _ one_word 0 k (one_covers 2 ltac:(lia))). apply one_expected; [exact Hk|reflexivity]. }
  set (I := fun q : bquery => bq_lxi q 0%nat 0%nat = bq_lxi q 0%nat 1%nat /\ (0 < bq_lxi q 0%nat 0%nat)%R /\ (bq_s q 0%nat < 1)%R).
  assert (Hm : forall q, I q -> forall k, k < 2 ->
    bq_means (bquery_iter 2 one_len inv_diag (inv_diag eye) prior S q) 0%nat k = ((1 + bq_s q 0%nat * bq_lxi q 0%nat 0%nat) / (1 + bq_lxi q 0%nat 0%nat))%R).
  { intros q (I3 & I4 & I5) k Hk. unfold bquery_iter. cbn [bq_means]. unfold inv_diag at 1. rewrite diag_dot by exact Hk.
    unfold bouch_rhs. rewrite (HP 0 k Hk), (HS k Hk), diag_at, inv_diag_eye. unfold eye, one_len. rewrite Nat.eqb_refl.
    assert (El : bq_lxi q 0%nat k = bq_lxi q 0%nat 0%nat) by (destruct k as [|[|]]; [reflexivity|congruence|lia]).
    rewrite El. field. lra. }
  assert (Hlt : forall q, I q -> ((1 + bq_s q 0%nat * bq_lxi q 0%nat 0%nat) / (1 + bq_lxi q 0%nat 0%nat) < 1)%R).
  { intros q (I3 & I4 & I5). apply (Rmult_lt_reg_r (1 + bq_lxi q 0%nat 0%nat)); [lra|]. unfold Rdiv. rewrite Rmult_assoc, Rinv_l by lra. nra. }
  assert (HI : forall q, I q -> I (bquery_iter 2 one_len inv_diag (inv_diag eye) prior S q)).
  { intros q Hq. pose proof Hq as (I3 & I4 & I5). pose proof (Hm q Hq) as E. pose proof (Hlt q Hq) as L.
    set (q' := bquery_iter _ _ _ _ _ _ _) in *.
    assert (Hv : forall k, k < 2 -> bq_varcs q' 0%nat k = (/ (1 + bq_lxi q 0%nat 0%nat))%R).
    { intros k Hk. unfold q', bquery_iter. cbn [bq_varcs]. rewrite inv_diag_eye. unfold eye, one_len. rewrite Nat.eqb_refl.
      assert (El : bq_lxi q 0%nat k = bq_lxi q 0%nat 0%nat) by (destruct k as [|[|]]; [reflexivity|congruence|lia]). rewrite El. field. lra. }
    assert (Hvp : (0 < bq_varcs q' 0%nat 0%nat)%R) by (rewrite Hv by lia; apply Rinv_0_lt_compat; lra).
    assert (El : forall k, bq_lxi q' 0%nat k = (2 * neg_jakkola (derive_xi (bq_means q' 0%nat k) (bq_varcs q' 0%nat k) (bq_s q 0%nat)))%R) by reflexivity.
    assert (Eq : bq_lxi q' 0%nat 0%nat = bq_lxi q' 0%nat 1%nat) by (rewrite !El, !E, !Hv by lia; reflexivity).
    assert (Hp : (0 < bq_lxi q' 0%nat 0%nat)%R).
    { rewrite El. pose proof (xi_pos (bq_means q' 0%nat 0%nat) (bq_varcs q' 0%nat 0%nat) (bq_s q 0) Hvp) as Hx.
      rewrite neg_jakkola_is by lra. pose proof (jaakkola_pos _ Hx). lra. }
    unfold I. split; [exact Eq|]. split; [exact Hp|].
    change (bq_s q' 0) with (new_s 2 (bq_lxi q') (bq_means q') 0). unfold new_s. two. rewrite <- Eq, !E by lia. cbn [INR].
    match goal with |- (?x < 1)%R => replace x with ((1 + bq_s q 0%nat * bq_lxi q 0%nat 0%nat) / (1 + bq_lxi q 0%nat 0%nat))%R; [exact L|] end.
    field. lra. }
  assert (I0 : I level_query).
  { unfold I. split; [reflexivity|]. split; [|cbn; lra]. pose proof (fresh_sound 2 2 ones 0 0 ltac:(lia) ltac:(lia)) as Q. apply Q. }
  destruct (query_last _ perp I HI todo 0 last level_query I0) as [q0 [Hq0 E0]]. rewrite E0.
  rewrite (level_posterior _ _ _ (Hm q0 Hq0) (fun i j _ _ => inv_diag_eye i j)), (level_posterior (bq_means level_query 0) 1 _ (fun _ _ => eq_refl) (fun i j _ _ => inv_diag_eye i j)).
  pose proof (Hlt q0 Hq0). nra.
Qed.

(** ** C171: the bound that is reported *)
Lemma words_shift K T v w m : 0 < K -> covers K T v ->
  (vsum T (fun t => w t * ln (vsum K (fun k => exp (m k) * v k t)))
   = vsum T w * vmax K m + vsum T (fun t => w t * ln (vsum K (fun k => exp (m k - vmax K m) * v k t))))%R.
Proof.
  intros HK Hv. rewrite <- vsum_scale_r, <- vsum_plus. apply vsum_ext. intros t Ht.
  assert (Hp : (0 < vsum K (fun k => exp (m k - vmax K m) * v k t))%R).
  { destruct Hv as [H0 H1]. destruct (H1 t Ht) as [k [Hk Hp]]. apply (vsum_pos_one K _ k Hk).
    - intros j Hj. apply Rmult_le_pos; [left; apply exp_pos|apply H0; assumption].
    - apply Rmult_lt_0_compat; [apply exp_pos|exact Hp]. }
  rewrite (vsum_ext K (fun k => exp (m k) * v k t)%R (fun k => exp (vmax K m) * (exp (m k - vmax K m) * v k t))%R).
  - rewrite vsum_scale, ln_mult, ln_exp by (try apply exp_pos; exact Hp). ring.
  - intros k _. rewrite <- Rmult_assoc, <- exp_plus. do 2 f_equal. ring.
Qed.
(** What is reported, for words that are likely enough: the objective of each document,
    with the determinant in place of its logarithm and without what taking the maximum
    off the means took from the words. *)
Theorem C171_bound_is K D T W n inv det tiny mu sigT vocab q : 0 < K -> counts D T W n -> covers K T vocab ->
  doc_sound D K (bq_varcs q) (bq_lxi q) ->
  (forall d t, d < D -> t < T -> (tiny < vsum K (fun k => exp (bq_means q d k - vmax K (bq_means q d)) * vocab k t))%R) ->
  let xi d k := derive_xi (bq_means q d k) (bq_varcs q d k) (bq_s q d) in
  (forall d k, d < D -> k < K -> bq_lxi q d k = jaakkola (xi d k)) ->
  bouch_bound K D T W n inv det tiny mu sigT vocab q
  = (vsum D (fun d => objective K T vocab mu (inv sigT) (W d) (bq_s q d) (xi d) (bq_means q d) (bq_varcs q d))
     + INR D * INR K / 2 - INR D / 2 * det sigT - vsum D (fun d => n d * vmax K (bq_means q d)))%R.
Proof.
  intros HK [H0 Hn] Hv HS Ht xi Hl. unfold bouch_bound.
  rewrite (ln_mult (2 * PI) (exp 1)), ln_exp by (try apply exp_pos; pose proof PI_RGT_0; lra).
  rewrite (vsum_ext D (fun d => vsum T (fun t => W d t * safe_ln tiny (vsum K (fun k => exp_means K (bq_means q) d k * vocab k t))))%R
    (fun d => vsum T (fun t => W d t * ln (vsum K (fun k => exp (bq_means q d k - vmax K (bq_means q d)) * vocab k t))))%R).
  2:{ intros d Hd. apply vsum_ext. intros t Ht0. f_equal. unfold safe_ln, exp_means. pose proof (Ht d t Hd Ht0) as H.
      unfold rltb. destruct (Rlt_dec _ _); [reflexivity|contradiction]. }
  set (A1 := fun d => vsum K (fun k => vsum K (fun j => (bq_means q d j - mu j) * inv sigT j k) * (bq_means q d k - mu k))%R).
  set (A2 := fun d => vsum K (fun k => bq_varcs q d k * inv sigT k k)%R).
  set (A3 := fun d => vsum K (fun k => ln (bq_varcs q d k))).
  set (A4 := fun d => vsum K (fun k => bound_topic (bq_means q d k) (bq_varcs q d k) (bq_lxi q d k) (bq_s q d)
                                        (derive_xi (bq_means q d k) (bq_varcs q d k) (bq_s q d)) (n d))).
  set (A5 := fun d => vsum T (fun t => W d t * ln (vsum K (fun k => exp (bq_means q d k - vmax K (bq_means q d)) * vocab k t)))%R).
  rewrite (vsum_ext D (fun d => objective _ _ _ _ _ _ _ _ _ _)
    (fun d => (-5/10) * A1 d + ((-5/10) * A2 d + (5/10 * A3 d + (A4 d + (A5 d + (n d * vmax K (bq_means q d) - bq_s q d * n d))))))%R).
  - rewrite !vsum_plus, vsum_minus, !vsum_scale. field.
  - intros d Hd. unfold objective. rewrite (words_shift K T vocab (W d) (bq_means q d) HK Hv), <- (Hn d Hd). fold (A5 d). fold (A3 d).
    assert (E1 : quad K (inv sigT) (fun k => bq_means q d k - mu k)%R (fun k => bq_means q d k - mu k)%R = A1 d).
    { unfold A1, quad. rewrite (vsum_swap K K (fun i j => (bq_means q d i - mu i) * inv sigT i j * (bq_means q d j - mu j))%R).
      apply vsum_ext. intros k _. rewrite vsum_scale_r. reflexivity. }
    assert (E2 : vsum K (fun k => inv sigT k k * bq_varcs q d k)%R = A2 d) by (apply vsum_ext; intros; ring).
    assert (E4 : A4 d = (bq_s q d * n d - n d * (bouchard K (bq_s q d) (xi d) (bq_means q d) + vsum K (fun k => jaakkola (xi d k) * bq_varcs q d k)))%R).
    { unfold A4, bouchard. rewrite (Rplus_assoc (bq_s q d)), <- vsum_plus, Rmult_plus_distr_l, <- vsum_scale.
      match goal with |- _ = (_ - (_ + ?s))%R => replace (bq_s q d * n d - (n d * bq_s q d + s))%R with (- s)%R by ring end.
      rewrite <- vsum_opp. apply vsum_ext. intros k Hk. unfold bound_topic. fold (xi d k). rewrite (Hl d k Hd Hk). field. }
    rewrite E1, E2, E4. field.
Qed.
Definition det2 (M : mat) : R := (M 0%nat 0%nat * M 1%nat 1%nat - M 0%nat 1%nat * M 1%nat 0%nat)%R.
Definition low_means : mat := fun _ _ => (-10)%R.
Definition low_query : bquery := {| bq_means := low_means; bq_varcs := ones; bq_lxi := lxi_of low_means ones (fun _ => 0%R); bq_s := fun _ => 0%R |}.
Definition ten_words : mat := fun _ _ => 10%R.
Definition ten : vec := fun _ => 10%R.
Lemma ten_counts : counts 2 1 ten_words ten.
Proof. split; [intros; unfold ten_words; lra|]. intros d _. unfold ten, ten_words. two. ring. Qed.
Lemma ln_one_plus_exp x : (ln (1 + exp x) <= x + exp (- x))%R.
Proof.
  replace (1 + exp x)%R with (exp x * (1 + exp (- x)))%R.
  - rewrite ln_mult, ln_exp by (pose proof (exp_pos x); pose proof (exp_pos (- x)); lra). pose proof (ln_le_sub1 (1 + exp (- x)) ltac:(pose proof (exp_pos (- x)); lra)). lra.
  - rewrite Rmult_plus_distr_l, <- exp_plus. replace (x + - x)%R with 0%R by ring. rewrite exp_0. ring.
Qed.
(** The probability of words is at most one, and so no lower bound of its logarithm is
    positive: that which is reported can be.  Here each document has ten times the one
    word that there is. *)
Theorem C171_not_positive_refuted : exists K D T W n inv det tiny mu sigT vocab q, counts D T W n /\ (forall k, k < K -> positive_dist T (vocab k)) /\
  symm K sigT /\ posdef K sigT /\ inverts K inv /\ (forall M, K = 2 -> det M = det2 M) /\ (0 < tiny < 1)%R /\ doc_sound D K (bq_varcs q) (bq_lxi q) /\
  (forall d k, d < D -> k < K -> bq_lxi q d k = jaakkola (derive_xi (bq_means q d k) (bq_varcs q d k) (bq_s q d))) /\
  (forall d m, d < D -> log_like K T vocab (W d) m = 0%R) /\
  (0 < bouch_bound K D T W n inv det tiny mu sigT vocab q)%R.
Proof.
  exists 2, 2, 1, ten_words, ten, inv2, det2, (1 / 1000)%R, (low_means 0%nat), eye, one_word, low_query. destruct eye_good as [Y1 Y2].
  assert (HS : doc_sound 2 2 (bq_varcs low_query) (bq_lxi low_query)).
  { intros d k _ _. cbn [bq_varcs bq_lxi low_query]. split; [unfold ones; lra|]. apply lxi_range. unfold ones. lra. }
  assert (HX : forall d k, d < 2 -> k < 2 -> bq_lxi low_query d k = jaakkola (derive_xi (bq_means low_query d k) (bq_varcs low_query d k) (bq_s low_query d))).
  { intros d k _ _. change (bq_lxi low_query d k) with (neg_jakkola (derive_xi (bq_means low_query d k) (bq_varcs low_query d k) (bq_s low_query d))).
    apply neg_jakkola_is. apply Rgt_not_eq. apply xi_pos. cbn [bq_varcs low_query]. unfold ones. lra. }
  split; [exact ten_counts|]. split; [intros; exact one_dist|]. split; [exact Y1|]. split; [exact Y2|]. split; [exact inv2_inverts|].
  split; [reflexivity|]. split; [lra|]. split; [exact HS|]. split; [exact HX|]. split.
  - intros d m _. unfold log_like, ten_words, one_word, softmax. two. pose proof (exp_pos (m 0)). pose proof (exp_pos (m 1)).
    match goal with |- context [ln ?x] => replace x with 1%R by (field; lra) end. rewrite ln_1. ring.
  - pose proof (C171_bound_is 2 2 1 ten_words ten inv2 det2 (1 / 1000) (low_means 0%nat) eye one_word low_query ltac:(lia) ten_counts (one_covers 2 ltac:(lia)) HS) as B.
    assert (EM : forall d, vmax 2 (bq_means low_query d) = (-10)%R) by (intros; unfold vmax; cbn [seq map fold_left]; apply Rmax_left; unfold low_query, low_means; cbn [bq_means]; lra).
    cbv zeta in B. rewrite B; [|intros d t _ _; rewrite EM; cbn [bq_means low_query]; unfold low_means, one_word; two; replace (-10 - -10)%R with 0%R by ring; rewrite exp_0; lra|exact HX]. clear B.
    set (x := sqrt 101).
    assert (Ex : forall d k, derive_xi (bq_means low_query d k) (bq_varcs low_query d k) (bq_s low_query d) = x).
    { intros. unfold derive_xi, x. f_equal. cbn [bq_means bq_varcs bq_s low_query]. unfold low_means, ones. ring. }
    assert (X2 : (x * x = 101)%R) by (apply sqrt_sqrt; lra). assert (X0 : (10 <= x)%R) by (unfold x; replace 10%R with (sqrt (10 * 10)) by (apply sqrt_square; lra); apply sqrt_le_1; lra).
    assert (X1 : (x <= 10 + 5 / 100)%R) by nra.
    two. rewrite !EM. unfold objective, bouchard, quad. two. rewrite !Ex. cbn [bq_means bq_varcs bq_s low_query]. unfold low_means, ones, ten, ten_words, one_word.
    rewrite !(inv2_eye 0 0), !(inv2_eye 1 1), !(inv2_eye 0 1), !(inv2_eye 1 0) by lia. unfold det2, eye. cbn [Nat.eqb INR].
    replace (exp (-10) * 1 + (exp (-10) * 1 + 0))%R with (exp (-10) * 2)%R by ring. rewrite ln_mult, ln_exp, ln_1 by (try apply exp_pos; lra).
    pose proof (ln_one_plus_exp x) as L1.
    assert (L2 : (exp (- x) <= / 11)%R).
    { rewrite exp_Ropp. apply Rinv_le_contravar; [lra|]. pose proof (exp_ineq1 x ltac:(lra)). lra. }
    assert (L3 : (1 / 2 <= ln 2)%R).
    { pose proof (ln_le_sub1 (/ 2) ltac:(lra)) as L. rewrite ln_Rinv in L by lra. lra. }
    assert (X3 : (jaakkola x * ((-10 - 0) * (-10 - 0) - x * x) = - jaakkola x)%R) by (rewrite X2; ring).
    rewrite !X3. lra.
Qed.

(** ** C172: documents without words *)
Lemma no_tokens K T W e v d k : (forall t, t < T -> W d t = 0%R) -> token_weights K T W e v d k = 0%R.
Proof.
  intros HW. unfold token_weights. rewrite (vsum_ext T _ (fun _ => 0%R)), vsum_zero by (intros t Ht; unfold quotient; rewrite (HW t Ht); unfold Rdiv; ring). ring.
Qed.
(** The side topic model predicts from the features alone. *)
Theorem C172_side_query K D T W n inv F X debug perp last iterations A sigT vocab q q' d : counts D T W n -> diagonal K sigT ->
  is_inverse K sigT (inv sigT) -> 0 < iterations -> d < D -> (forall t, t < T -> W d t = 0%R) ->
  yv_query K D T W n inv F X debug perp last iterations A sigT vocab q = Ok q' ->
  forall k, k < K -> bq_means q' d k = stm_mean F X A d k /\ bq_varcs q' d k = sigT k k.
Proof.
  intros [_ Hn] [Hz Hp] HI Hi Hd HW E k Hk. pose proof (diag_inverse K sigT (inv sigT) Hz Hp HI) as Ei.
  assert (N0 : n d = 0%R) by (rewrite (Hn d Hd), (vsum_ext T _ (fun _ => 0%R)) by exact HW; apply vsum_zero).
  unfold yv_query in E. destruct iterations as [|m]; [lia|]. cbn [Nat.eqb] in E. destruct (D =? 1); [discriminate|]. destruct debug; [discriminate|]. apply ok_inj in E.
  destruct (query_last (yquery_iter K T W n (inv sigT) (stm_mean F X A) vocab) perp (fun _ => True) (fun _ _ => Logic.I) m 0 last q Logic.I) as [q0 [_ E0]].
  rewrite E0 in E. subst q'. unfold yquery_iter. cbn [bq_means bq_varcs]. rewrite (no_tokens K T W _ vocab d k HW), N0.
  assert (Ek : inv sigT k k = (/ sigT k k)%R) by (rewrite (Ei k k Hk Hk); apply diag_at). pose proof (Hp k Hk).
  rewrite (vsum_ext K (fun j => stm_mean F X A d j * inv sigT j k)%R (fun j => diag (fun k => / sigT k k) k j * stm_mean F X A d j)%R).
  2:{ intros j Hj. rewrite (Ei j k Hj Hk), (diag_symm K _ j k Hj Hk). ring. }
  rewrite diag_dot by exact Hk. rewrite Ek. split; field; lra.
Qed.
(** The correlated topic model returns its prior mean. *)
Theorem C172_ctm_query K D T W n inv perp last iterations mu sigT vocab q q' d : counts D T W n -> inverts K inv -> symm K sigT -> posdef K sigT ->
  0 < iterations -> d < D -> (forall t, t < T -> W d t = 0%R) ->
  bouch_query K D T W n inv perp last iterations mu sigT vocab q = Ok q' ->
  forall k, k < K -> bq_means q' d k = mu k /\ bq_varcs q' d k = (/ inv sigT k k)%R.
Proof.
  intros [_ Hn] HI HSy HPd Hi Hd HW E k Hk. destruct (HI sigT HSy HPd) as [Hr Hl].
  assert (N0 : n d = 0%R) by (rewrite (Hn d Hd), (vsum_ext T _ (fun _ => 0%R)) by exact HW; apply vsum_zero).
  unfold bouch_query in E. destruct (_ && _); [discriminate|]. apply ok_inj in E. destruct iterations as [|m]; [lia|].
  destruct (query_last (bquery_iter K n inv (inv sigT) (ctm_prior K (inv sigT) mu) (token_weights K T W (exp_means K (bq_means q)) vocab)) perp
    (fun _ => True) (fun _ _ => Logic.I) m 0 last q Logic.I) as [q0 [_ E0]].
  rewrite E0 in E. subst q'. unfold bquery_iter. cbn [bq_means bq_varcs].
  split; [|rewrite N0; unfold Rdiv; rewrite Rmult_1_l; f_equal; ring].
  set (M := fun i j => (inv sigT i j + diag (fun k => n d * bq_lxi q0 d k) i j)%R).
  assert (EM : forall i j, M i j = inv sigT i j) by (intros i j; unfold M, diag; rewrite N0; destruct (i =? j); ring).
  assert (SM : symm K M) by (intros i j Hi0 Hj; rewrite !EM; apply (inverse_symm K sigT (inv sigT) HSy Hr Hl); assumption).
  assert (PM : posdef K M).
  { intros x Hx. rewrite (quad_ext K M (inv sigT) x x x x) by (intros; rewrite ?EM; reflexivity). apply (inverse_posdef K sigT (inv sigT) HPd Hr Hl x Hx). }
  destruct (HI M SM PM) as [_ HM].
  rewrite (vsum_ext K _ (fun j => inv M k j * vsum K (fun l => M j l * mu l))%R); [apply (is_inverse_vec K (inv M) M mu HM k Hk)|].
  intros j Hj. f_equal. unfold bouch_rhs. rewrite (no_tokens K T W _ vocab d j HW), N0. unfold ctm_prior.
  rewrite (vsum_ext K (fun l => M j l * mu l)%R (fun l => inv sigT j l * mu l)%R) by (intros; rewrite EM; reflexivity). ring.
Qed.

(** ** C173: the regression of the side topic model *)
(** Weighted least squares with a Gaussian prior. *)
Definition least_squares (P K : nat) (N : mat) (v0 w : vec) (X : mat) (t v : vec) : R :=
  (quad P N (fun p => v p - v0 p) (fun p => v p - v0 p)
   + vsum K (fun k => w k * ((t k - vsum P (fun p => X k p * v p)) * (t k - vsum P (fun p => X k p * v p)))))%R.
Lemma normal_equations P K N v0 w X t a : symm P N -> psd P N -> (forall k, k < K -> (0 <= w k)%R) ->
  (forall i, i < P -> vsum P (fun j => (N i j + vsum K (fun k => w k * (X k i * X k j))) * a j)%R
     = (vsum P (fun j => N i j * v0 j) + vsum K (fun k => w k * (X k i * t k)))%R) ->
  forall b, (least_squares P K N v0 w X t a <= least_squares P K N v0 w X t b)%R.
Proof.
  intros HS HN Hw HA b. unfold least_squares. set (h := fun p => (b p - a p)%R).
  rewrite (quad_ext P N N (fun p => b p - v0 p)%R (fun p => b p - v0 p)%R (fun p => (a p - v0 p) + h p)%R (fun p => (a p - v0 p) + h p)%R)
    by (intros; try reflexivity; unfold h; ring).
  rewrite (quad_square P N (fun p => a p - v0 p)%R h HS).
  assert (Eb : forall k, vsum P (fun p => X k p * b p)%R = (vsum P (fun p => X k p * a p) + vsum P (fun p => X k p * h p))%R).
  { intros k. rewrite <- vsum_plus. apply vsum_ext. intros; unfold h; ring. }
  rewrite (vsum_ext K (fun k => w k * ((t k - vsum P (fun p => X k p * b p)) * (t k - vsum P (fun p => X k p * b p))))%R
    (fun k => w k * ((t k - vsum P (fun p => X k p * a p)) * (t k - vsum P (fun p => X k p * a p)))
      + ((-2) * (w k * ((t k - vsum P (fun p => X k p * a p)) * vsum P (fun p => X k p * h p)))
        + w k * (vsum P (fun p => X k p * h p) * vsum P (fun p => X k p * h p))))%R) by (intros; rewrite Eb; ring).
  rewrite !vsum_plus, vsum_scale.
  assert (Z : quad P N h (fun p => a p - v0 p)%R = vsum K (fun k => w k * ((t k - vsum P (fun p => X k p * a p)) * vsum P (fun p => X k p * h p)))%R).
  { rewrite quad_mat.
    rewrite (vsum_ext K _ (fun k => vsum P (fun i => h i * (w k * (X k i * (t k - vsum P (fun p => X k p * a p))))))%R).
    2:{ intros k _. rewrite <- !vsum_scale. apply vsum_ext. intros; ring. }
    rewrite (vsum_swap K P (fun k i => h i * (w k * (X k i * (t k - vsum P (fun p => X k p * a p)))))%R). apply vsum_ext. intros i Hi.
    rewrite vsum_scale. f_equal. pose proof (HA i Hi) as E.
    rewrite (vsum_ext P (fun j => (N i j + _) * a j)%R (fun j => N i j * a j + vsum K (fun k => w k * (X k i * (X k j * a j))))%R) in E.
    2:{ intros j _. rewrite Rmult_plus_distr_r. f_equal. rewrite <- vsum_scale_r. apply vsum_ext. intros; ring. }
    rewrite vsum_plus, (vsum_swap P K (fun j k => w k * (X k i * (X k j * a j)))%R) in E.
    rewrite (vsum_ext K (fun k => vsum P (fun j => w k * (X k i * (X k j * a j))))%R (fun k => w k * (X k i * vsum P (fun j => X k j * a j)))%R) in E.
    2:{ intros k _. rewrite !vsum_scale. reflexivity. }
    rewrite (vsum_ext P (fun j => N i j * (a j - v0 j))%R (fun j => N i j * a j - N i j * v0 j)%R) by (intros; ring).
    rewrite (vsum_ext K (fun k => w k * (X k i * (t k - _)))%R (fun k => w k * (X k i * t k) - w k * (X k i * vsum P (fun p => X k p * a p)))%R) by (intros; ring).
    rewrite !vsum_minus. lra. }
  rewrite Z. pose proof (HN h) as Hh.
  assert (0 <= vsum K (fun k => w k * (vsum P (fun p => X k p * h p) * vsum P (fun p => X k p * h p))))%R.
  { apply vsum_nonneg. intros k Hk. apply Rmult_le_pos; [apply Hw; exact Hk|exact (Rle_0_sqr _)]. }
  lra.
Qed.
(** The matrix of the normal equations. *)
Definition normal_matrix (K : nat) (N : mat) (w : vec) (X : mat) : mat := fun i j => (N i j + vsum K (fun k => w k * (X k i * X k j)))%R.
Lemma normal_good P K N w X : symm P N -> posdef P N -> (forall k, k < K -> (0 <= w k)%R) ->
  symm P (normal_matrix K N w X) /\ posdef P (normal_matrix K N w X).
Proof.
  intros HS HP Hw. split.
  - intros i j Hi Hj. unfold normal_matrix. rewrite (HS i j Hi Hj). f_equal. apply vsum_ext. intros; ring.
  - intros x Hx. unfold normal_matrix. rewrite quad_sum. pose proof (HP x Hx).
    assert (0 <= quad P (fun i j => vsum K (fun k => w k * (X k i * X k j))) x x)%R; [|lra].
    assert (E : quad P (fun i j => vsum K (fun k => w k * (X k i * X k j)))%R x x = vsum K (fun k => w k * (vsum P (fun i => x i * X k i) * vsum P (fun i => x i * X k i)))%R).
    { unfold quad.
      rewrite (vsum_ext P _ (fun i => vsum K (fun k => vsum P (fun j => w k * (x i * X k i * (x j * X k j)))))%R).
      2:{ intros i _. rewrite (vsum_swap K P (fun k j => w k * (x i * X k i * (x j * X k j)))%R). apply vsum_ext. intros j _.
          rewrite <- vsum_scale, <- vsum_scale_r. apply vsum_ext. intros; ring. }
      rewrite (vsum_swap P K (fun i k => vsum P (fun j => w k * (x i * X k i * (x j * X k j))))%R). apply vsum_ext. intros k _.
      rewrite (vsum_ext P _ (fun i => w k * (x i * X k i * vsum P (fun j => x j * X k j)))%R) by (intros i _; rewrite !vsum_scale; reflexivity).
      rewrite vsum_scale, vsum_scale_r. reflexivity. }
    rewrite E. apply vsum_nonneg. intros k Hk. apply Rmult_le_pos; [apply Hw; exact Hk|exact (Rle_0_sqr _)].
Qed.
Lemma quad_eye P c x : quad P (fun i j => c * eye i j)%R x x = (c * vsum P (fun i => x i * x i))%R.
Proof.
  rewrite quad_scale. f_equal. unfold quad. apply vsum_ext. intros i Hi. rewrite (vsum_ext P _ (fun j => eye i j * (x i * x j))%R) by (intros; ring).
  rewrite vsum_eye by exact Hi. reflexivity.
Qed.
Lemma scaled_eye_good P c : (0 < c)%R -> symm P (fun i j => c * eye i j)%R /\ posdef P (fun i j => c * eye i j)%R.
Proof.
  intros Hc. split; [intros i j _ _; unfold eye; rewrite Nat.eqb_sym; reflexivity|].
  intros x [k [Hk Hx]]. rewrite quad_eye. apply Rmult_lt_0_compat; [exact Hc|]. apply (vsum_pos_one P _ k Hk).
  - intros j _. exact (Rle_0_sqr (x j)).
  - exact (Rlt_0_sqr (x k) Hx).
Qed.
Lemma inverse_ext P (inv : mat -> mat) M N : inverts P inv -> (forall i j, M i j = N i j) -> symm P N -> posdef P N ->
  is_inverse P N (inv M) /\ is_inverse P (inv M) N.
Proof.
  intros HI E HS HP. destruct (HI M) as [H1 H2].
  - intros i j Hi Hj. rewrite !E. apply HS; assumption.
  - intros x Hx. rewrite (quad_ext P M N x x x x) by (intros; rewrite ?E; reflexivity). apply HP. exact Hx.
  - split; intros i j Hi Hj; [rewrite <- (H1 i j Hi Hj)|rewrite <- (H2 i j Hi Hj)]; apply vsum_ext; intros; rewrite E; reflexivity.
Qed.
(** A row times a symmetric inverse solves the equations. *)
Lemma row_solves P M N r : symm P M -> is_inverse P M N -> is_inverse P N M ->
  forall i, i < P -> vsum P (fun j => M i j * vsum P (fun l => r l * N l j))%R = r i.
Proof.
  intros HS H1 H2 i Hi. pose proof (inverse_symm P M N HS H1 H2) as HN.
  rewrite (vsum_ext P _ (fun j => M i j * vsum P (fun l => N j l * r l))%R); [apply (is_inverse_vec P M N r H1 i Hi)|].
  intros j Hj. f_equal. apply vsum_ext. intros l Hl. rewrite (HN l j Hl Hj). ring.
Qed.

Section regression.
  Variables (K D T : nat) (W : mat) (n : vec) (beta : R) (inv : nat -> mat -> mat) (F P : nat) (fv lfv : R) (X : mat) (debug : bool) (st st' : yv).
  Hypothesis Hfv : (0 < fv)%R.
  Hypothesis Hlfv : (0 < lfv)%R.
  Hypothesis E : yv_iter K D T W n beta inv F P fv lfv X debug st = Ok st'.

  (** From features to topics: how far the topics of the documents, and the product of the
      two factors, are from the predictions. *)
  Theorem C173_features k b : inverts F (inv F) ->
    (1 / fv * vsum F (fun f => (y_A st' k f - vsum P (fun p => y_Y st' k p * y_V st' p f)) * (y_A st' k f - vsum P (fun p => y_Y st' k p * y_V st' p f)))
       + vsum D (fun d => (y_means st d k - vsum F (fun f => X d f * y_A st' k f)) * (y_means st d k - vsum F (fun f => X d f * y_A st' k f)))
     <= 1 / fv * vsum F (fun f => (b f - vsum P (fun p => y_Y st' k p * y_V st' p f)) * (b f - vsum P (fun p => y_Y st' k p * y_V st' p f)))
       + vsum D (fun d => (y_means st d k - vsum F (fun f => X d f * b f)) * (y_means st d k - vsum F (fun f => X d f * b f))))%R.
  Proof.
    intros HI. assert (Hc : (0 < 1 / fv)%R) by (apply Rdiv_lt_0_compat; lra).
    destruct (scaled_eye_good F _ Hc) as [S1 S2].
    assert (EO : forall c, (1 / fv * vsum F (fun f => (c f - vsum P (fun p => y_Y st' k p * y_V st' p f)) * (c f - vsum P (fun p => y_Y st' k p * y_V st' p f)))
       + vsum D (fun d => (y_means st d k - vsum F (fun f => X d f * c f)) * (y_means st d k - vsum F (fun f => X d f * c f)))
       = least_squares F D (fun i j => 1 / fv * eye i j) (fun f => vsum P (fun p => y_Y st' k p * y_V st' p f)) (fun _ => 1) X (fun d => y_means st d k) c)%R).
    { intros c. unfold least_squares. rewrite quad_eye. f_equal. apply vsum_ext. intros; ring. }
    rewrite !EO. apply normal_equations; [exact S1|apply posdef_psd; exact S2|intros; lra|]. intros i Hi.
    destruct (normal_good F D (fun i j => 1 / fv * eye i j)%R (fun _ => 1%R) X S1 S2 ltac:(intros; lra)) as [N1 N2].
    destruct (inverse_ext F (inv F) (fun f g => vsum D (fun d => X d f * X d g) + (if f =? g then 1 / fv else 0))%R (normal_matrix D (fun i j => 1 / fv * eye i j) (fun _ => 1) X)%R HI
      ltac:(intros i0 j0; unfold normal_matrix, eye; rewrite Rplus_comm; f_equal;
            [destruct (i0 =? j0); ring|apply vsum_ext; intros; ring]) N1 N2) as [I1 I2].
    assert (EA : forall f, y_A st' k f = vsum F (fun g => (1 / fv * vsum P (fun p => y_Y st' k p * y_V st' p g) + vsum D (fun d => X d g * y_means st d k)) * yv_RA D inv F fv X g f)%R).
    { revert E. unfold yv_iter. destruct debug; [discriminate|]. destruct (D =? 1); [discriminate|]. intros E1. apply ok_inj in E1. subst st'. reflexivity. }
    rewrite (vsum_ext F _ (fun j => normal_matrix D (fun i j => 1 / fv * eye i j) (fun _ => 1) X i j
      * vsum F (fun g => (1 / fv * vsum P (fun p => y_Y st' k p * y_V st' p g) + vsum D (fun d => X d g * y_means st d k)) * yv_RA D inv F fv X g j))%R)
      by (intros j _; rewrite EA; reflexivity).
    unfold yv_RA. rewrite (row_solves F _ _ _ N1 I1 I2 i Hi).
    f_equal; [|apply vsum_ext; intros; ring].
    rewrite (vsum_ext F _ (fun j => eye i j * (1 / fv * vsum P (fun p => y_Y st' k p * y_V st' p j)))%R) by (intros; ring).
    rewrite vsum_eye by exact Hi. reflexivity.
  Qed.
  (** The factor of the topics. *)
  Theorem C173_topic_factor k b : inverts P (inv P) ->
    (1 / lfv * vsum P (fun p => y_Y st' k p * y_Y st' k p)
       + 1 / fv * vsum F (fun f => (y_A st k f - vsum P (fun p => y_V st' p f * y_Y st' k p)) * (y_A st k f - vsum P (fun p => y_V st' p f * y_Y st' k p)))
     <= 1 / lfv * vsum P (fun p => b p * b p)
       + 1 / fv * vsum F (fun f => (y_A st k f - vsum P (fun p => y_V st' p f * b p)) * (y_A st k f - vsum P (fun p => y_V st' p f * b p))))%R.
  Proof.
    intros HI. assert (Hc : (0 < 1 / lfv)%R) by (apply Rdiv_lt_0_compat; lra). assert (Hg : (0 < 1 / fv)%R) by (apply Rdiv_lt_0_compat; lra).
    destruct (scaled_eye_good P _ Hc) as [S1 S2].
    assert (EO : forall c, (1 / lfv * vsum P (fun p => c p * c p)
       + 1 / fv * vsum F (fun f => (y_A st k f - vsum P (fun p => y_V st' p f * c p)) * (y_A st k f - vsum P (fun p => y_V st' p f * c p)))
       = least_squares P F (fun i j => 1 / lfv * eye i j) (fun _ => 0) (fun _ => 1 / fv) (fun f p => y_V st' p f) (fun f => y_A st k f) c)%R).
    { intros c. unfold least_squares. rewrite quad_eye, vsum_scale. f_equal. f_equal. apply vsum_ext. intros; ring. }
    rewrite !EO. apply normal_equations; [exact S1|apply posdef_psd; exact S2|intros; lra|]. intros i Hi.
    destruct (normal_good P F (fun i j => 1 / lfv * eye i j)%R (fun _ => 1 / fv)%R (fun f p => y_V st' p f) S1 S2 ltac:(intros; lra)) as [N1 N2].
    destruct (inverse_ext P (inv P) (fun i j => (if i =? j then 1 / lfv else 0) + 1 / fv * vsum F (fun f => y_V st' i f * y_V st' j f))%R (normal_matrix F (fun i j => 1 / lfv * eye i j) (fun _ => 1 / fv) (fun f p => y_V st' p f))%R HI
      ltac:(intros i0 j0; unfold normal_matrix, eye; f_equal;
            [destruct (i0 =? j0); ring|rewrite vsum_scale; reflexivity]) N1 N2) as [I1 I2].
    assert (EY : forall p, y_Y st' k p = vsum P (fun q => 1 / fv * vsum F (fun f => y_A st k f * y_V st' q f) * yv_RY inv F P fv lfv (y_V st') q p)%R).
    { revert E. unfold yv_iter. destruct debug; [discriminate|]. destruct (D =? 1); [discriminate|]. intros E1. apply ok_inj in E1. subst st'.
      intros p. cbn [y_Y y_V]. unfold yv_Y. rewrite <- vsum_scale. apply vsum_ext. intros; ring. }
    rewrite (vsum_ext P _ (fun j => normal_matrix F (fun i j => 1 / lfv * eye i j) (fun _ => 1 / fv) (fun f p => y_V st' p f) i j
      * vsum P (fun q => 1 / fv * vsum F (fun f => y_A st k f * y_V st' q f) * yv_RY inv F P fv lfv (y_V st') q j))%R)
      by (intros j _; rewrite EY; reflexivity).
    unfold yv_RY. rewrite (row_solves P _ _ _ N1 I1 I2 i Hi).
    rewrite (vsum_ext P _ (fun _ => 0%R)), vsum_zero by (intros; ring). rewrite Rplus_0_l, vsum_scale. f_equal. apply vsum_ext. intros; ring.
  Qed.
  (** The factor of the features. *)
  Theorem C173_feature_factor f b : inverts P (inv P) -> symm P (y_RY st) -> posdef P (y_RY st) -> 0 < D -> doc_sound D K (y_varcs st) (y_lxi st) ->
    (quad P (y_RY st) (fun p => y_V st' p f) (fun p => y_V st' p f)
       + vsum K (fun k => / y_sigT st' k k * ((y_A st k f - vsum P (fun p => y_Y st k p * y_V st' p f)) * (y_A st k f - vsum P (fun p => y_Y st k p * y_V st' p f))))
     <= quad P (y_RY st) b b
       + vsum K (fun k => / y_sigT st' k k * ((y_A st k f - vsum P (fun p => y_Y st k p * b p)) * (y_A st k f - vsum P (fun p => y_Y st k p * b p)))))%R.
  Proof.
    intros HI S1 S2 HD HS.
    assert (Hw : forall k, k < K -> (0 < / y_sigT st' k k)%R).
    { intros k Hk. apply Rinv_0_lt_compat. revert E. unfold yv_iter. destruct debug; [discriminate|]. destruct (D =? 1); [discriminate|]. intros E1. apply ok_inj in E1. subst st'.
      cbn [y_sigT]. rewrite diag_at. apply yv_diag_pos; [lia|assumption|assumption|]. intros d0 Hd0. apply (HS d0 k Hd0 Hk). }
    assert (EO : forall c, (quad P (y_RY st) c c
       + vsum K (fun k => / y_sigT st' k k * ((y_A st k f - vsum P (fun p => y_Y st k p * c p)) * (y_A st k f - vsum P (fun p => y_Y st k p * c p))))
       = least_squares P K (y_RY st) (fun _ => 0) (fun k => / y_sigT st' k k) (y_Y st) (fun k => y_A st k f) c)%R).
    { intros c. unfold least_squares. f_equal. apply quad_ext; [reflexivity|intros; ring|intros; ring]. }
    rewrite !EO. apply normal_equations; [exact S1|apply posdef_psd; exact S2|intros; left; apply Hw; assumption|]. intros i Hi.
    destruct (normal_good P K (y_RY st) (fun k => / y_sigT st' k k)%R (y_Y st) S1 S2 ltac:(intros; left; apply Hw; assumption)) as [N1 N2].
    destruct (inverse_ext P (inv P) (fun i j => y_RY st i j + vsum K (fun k => y_Y st k i * / y_sigT st' k k * y_Y st k j))%R (normal_matrix K (y_RY st) (fun k => / y_sigT st' k k) (y_Y st))%R HI
      ltac:(intros i0 j0; unfold normal_matrix; f_equal; apply vsum_ext; intros; ring) N1 N2) as [I1 I2].
    assert (EV : forall p, y_V st' p f = vsum P (fun q => inv P (fun i j => y_RY st i j + vsum K (fun k => y_Y st k i * / y_sigT st' k k * y_Y st k j)) p q
                     * vsum K (fun k => y_Y st k q * / y_sigT st' k k * y_A st k f))%R).
    { revert E. unfold yv_iter. destruct debug; [discriminate|]. destruct (D =? 1); [discriminate|]. intros E1. apply ok_inj in E1. subst st'.
      intros p. cbn [y_V y_sigT]. unfold yv_V.
      assert (Ed : forall k, diag (yv_diag D F P fv lfv X st) k k = yv_diag D F P fv lfv X st k) by (intros; apply diag_at).
      apply vsum_ext. intros q _. f_equal; [|apply vsum_ext; intros; rewrite Ed; reflexivity].
      match goal with |- inv P ?M p q = inv P ?N p q => assert (EMN : M = N); [|rewrite EMN; reflexivity] end.
      unfold diag. apply FunctionalExtensionality.functional_extensionality. intros i0. apply FunctionalExtensionality.functional_extensionality. intros j0.
      f_equal. apply vsum_ext. intros. rewrite Nat.eqb_refl. reflexivity. }
    rewrite (vsum_ext P _ (fun j => normal_matrix K (y_RY st) (fun k => / y_sigT st' k k) (y_Y st) i j
      * vsum P (fun q => inv P (fun i j => y_RY st i j + vsum K (fun k => y_Y st k i * / y_sigT st' k k * y_Y st k j)) j q
                     * vsum K (fun k => y_Y st k q * / y_sigT st' k k * y_A st k f)))%R)
      by (intros j _; rewrite EV; reflexivity).
    rewrite (is_inverse_vec P _ _ _ I1 i Hi).
    rewrite (vsum_ext P (fun j => y_RY st i j * 0)%R (fun _ => 0%R)), vsum_zero by (intros; ring). rewrite Rplus_0_l. apply vsum_ext. intros; ring.
  Qed.
End regression.

(** ** C174: debugging, and single documents *)
Theorem C174_debug_training K D T W n beta inv F P fv lfv X perp logFrequency iterations st : 0 < logFrequency -> 0 < iterations ->
  yv_train K D T W n beta inv F P fv lfv X true perp logFrequency iterations st = Raise TypeError.
Proof.
  intros Hf Hi. unfold yv_train, log_train. destruct (Nat.eqb_spec logFrequency 0); [lia|]. destruct iterations as [|m]; [lia|]. reflexivity.
Qed.
Theorem C174_debug_query K D T W n inv F X perp last iterations A sigT vocab q : D <> 1 -> 0 < iterations ->
  yv_query K D T W n inv F X true perp last iterations A sigT vocab q = Raise TypeError.
Proof.
  intros HD Hi. unfold yv_query. destruct (Nat.eqb_spec iterations 0); [lia|]. destruct (Nat.eqb_spec D 1); [contradiction|]. reflexivity.
Qed.
Theorem C174_single_document_training K T W n beta oas inv F P fv lfv X perp perp' logFrequency iterations st st' : 0 < logFrequency -> 0 < iterations ->
  bouch_train K 1 T W n beta oas perp logFrequency iterations st = Raise IndexError /\
  yv_train K 1 T W n beta inv F P fv lfv X false perp' logFrequency iterations st' = Raise IndexError.
Proof.
  intros Hf Hi. unfold bouch_train, yv_train, log_train. destruct (Nat.eqb_spec logFrequency 0); [lia|].
  destruct iterations as [|m]; [lia|]. split; reflexivity.
Qed.
Theorem C174_single_document_query K T W n inv F X debug perp last iterations mu A sigT vocab q : 0 < iterations ->
  bouch_query K 1 T W n inv perp last iterations mu sigT vocab q = Raise IndexError /\
  yv_query K 1 T W n inv F X debug perp last iterations A sigT vocab q = Raise IndexError.
Proof.
  intros Hi. unfold bouch_query, yv_query. destruct (Nat.eqb_spec iterations 0); [lia|]. split; reflexivity.
Qed.

(** ** Examples *)
Definition sample_lxi : mat := fun d k => (2 * lxi_of two_means ones (fun _ => 0%R) d k)%R.
Definition sample_xi (d k : nat) : R := derive_xi (two_means d k) 1 0.
Lemma sample_lxi_is d k : (0 < sample_xi d k)%R /\ sample_lxi d k = (2 * jaakkola (sample_xi d k))%R.
Proof.
  assert (H : (0 < sample_xi d k)%R) by (apply xi_pos; lra). split; [exact H|]. unfold sample_lxi, lxi_of, ones. fold (sample_xi d k).
  rewrite neg_jakkola_is by lra. reflexivity.
Qed.
Lemma sample_sound D K : doc_sound D K ones sample_lxi.
Proof. intros d k _ _. split; [unfold ones; lra|]. destruct (sample_lxi_is d k) as [H ->]. pose proof (jaakkola_pos _ H). lra. Qed.
Definition sample : bouch :=
  {| b_mean := fun _ => 0%R; b_sigT := eye; b_vocab := two_topics; b_means := two_means; b_varcs := ones; b_lxi := sample_lxi; b_s := fun _ => 0%R |}.
Definition sample_yv : yv :=
  {| y_A := two_means; y_Y := two_topics; y_RY := eye; y_V := two_means; y_sigT := eye; y_vocab := two_topics;
     y_means := two_means; y_varcs := ones; y_lxi := sample_lxi; y_s := fun _ => 0%R |}.
Definition sample_query : bquery := fresh_query two_means.
Lemma sample_query_xi d k : (0 < sample_xi d k)%R /\ bq_lxi sample_query d k = jaakkola (sample_xi d k).
Proof. destruct (sample_lxi_is d k) as [H E]. split; [exact H|]. unfold sample_lxi in E. cbn [bq_lxi sample_query fresh_query]. lra. Qed.
Lemma two_covers : covers 2 2 two_topics.
Proof. apply positive_covers; [lia|exact two_dists]. Qed.
Definition sample_train := bouch_train 2 2 2 two_words four (1 / 10) (fun _ => eye) (fun _ => 0%R) 10 50.
Definition sample_yv_train := yv_train 2 2 2 two_words four (1 / 10) (fun _ => inv2) 2 2 1 1 two_words false (fun _ => 0%R) 10 60.
Lemma eye_nonneg (m : mat) k : k < 2 -> (0 <= (fun _ : mat => eye) m k k)%R.
Proof. intros _. unfold eye. rewrite Nat.eqb_refl. lra. Qed.
Lemma four_nonneg d : d < 2 -> (0 <= four d)%R.
Proof. intros Hd. rewrite (proj2 two_counts d Hd). apply vsum_nonneg. intros t Ht. apply two_counts; assumption. Qed.

Example C163_ctm_training_ex : exists out, sample_train sample = Ok out /\ (0 < b_lxi out 1%nat 0%nat < 1 / 4)%R /\ (0 < b_varcs out 1%nat 0%nat <= b_sigT out 0%nat 0%nat)%R.
Proof.
  destruct (C169_ctm_multiple 2 2 2 two_words four (1 / 10) (fun _ => eye) (fun _ => 0%R) 10 50 sample ltac:(lia) ltac:(lia) eq_refl) as [out E].
  exists out. split; [exact E|].
  destruct (C163_ctm_training 2 2 2 two_words four (1 / 10) (fun _ => eye) ltac:(lia) four_nonneg eye_nonneg (fun _ => 0%R) 10 50 sample out (sample_sound 2 2) (Nat.lt_0_succ 49) E 1 0) as (H1 & H2 & _); [lia|lia|].
  split; assumption.
Qed.
Example C163_side_training_ex : exists out, sample_yv_train sample_yv = Ok out /\ (0 < y_lxi out 1%nat 0%nat < 1 / 4)%R /\ (0 < y_varcs out 1%nat 0%nat <= y_sigT out 0%nat 0%nat)%R.
Proof.
  destruct (C169_side_multiple 2 2 2 two_words four (1 / 10) (fun _ => inv2) 2 2 1 1 two_words (fun _ => 0%R) 10 60 sample_yv ltac:(lia) ltac:(lia) eq_refl) as [out E].
  exists out. split; [exact E|].
  destruct (C163_side_training 2 2 2 two_words four (1 / 10) (fun _ => inv2) 2 2 1 1 two_words ltac:(lia) four_nonneg ltac:(lra) ltac:(lra)
    false (fun _ => 0%R) 10 60 sample_yv out (sample_sound 2 2) (Nat.lt_0_succ 59) E 1 0) as (H1 & H2 & _); [lia|lia|].
  split; assumption.
Qed.
Lemma inv_diag_pos K k : k < K -> (0 < inv_diag eye k k)%R.
Proof. intros _. rewrite inv_diag_eye. unfold eye. rewrite Nat.eqb_refl. lra. Qed.
Example C163_ctm_query_ex : exists q', bouch_query 2 2 2 two_words four inv_diag (fun _ => 0%R) 0%R 3 (fun _ => 1%R) eye two_topics sample_query = Ok q' /\
  (0 < bq_lxi q' 1%nat 0%nat < 1 / 4)%R /\ (0 < bq_varcs q' 1%nat 0%nat <= 1)%R.
Proof.
  eexists. split; [reflexivity|].
  match goal with |- context [bq_lxi ?q'] => pose proof (C163_ctm_query 2 2 2 two_words four inv_diag four_nonneg (fun _ => 0%R) 0%R 3 (fun _ => 1%R) eye two_topics sample_query q'
    (inv_diag_pos 2) (fresh_sound 2 2 two_means) (Nat.lt_0_succ 2) eq_refl 1 0 ltac:(lia) ltac:(lia)) as (H1 & H2 & _) end.
  split; [exact H1|]. rewrite inv_diag_eye in H2. unfold eye in H2. cbn [Nat.eqb] in H2. rewrite Rinv_1 in H2. exact H2.
Qed.
Example C163_side_query_ex : exists q', yv_query 2 2 2 two_words four inv_diag 2 two_words false (fun _ => 0%R) 0%R 3 two_means eye two_topics sample_query = Ok q' /\
  (0 < bq_lxi q' 1%nat 0%nat < 1 / 8)%R /\ (0 < bq_varcs q' 1%nat 0%nat <= 1)%R.
Proof.
  eexists. split; [reflexivity|].
  match goal with |- context [bq_lxi ?q'] => pose proof (C163_side_query 2 2 2 two_words four inv_diag four_nonneg 2 two_words false (fun _ => 0%R) 0%R 3 two_means eye two_topics sample_query q'
    (inv_diag_pos 2) (fresh_sound 2 2 two_means) (Nat.lt_0_succ 2) eq_refl 1 0 ltac:(lia) ltac:(lia)) as (H1 & H2 & _) end.
  split; [exact H1|]. rewrite inv_diag_eye in H2. unfold eye in H2. cbn [Nat.eqb] in H2. rewrite Rinv_1 in H2. exact H2.
Qed.
Example C164_ctm_topics_ex : exists out, sample_train sample = Ok out /\ positive_dist 2 (b_vocab out 1).
Proof.
  destruct (C169_ctm_multiple 2 2 2 two_words four (1 / 10) (fun _ => eye) (fun _ => 0%R) 10 50 sample ltac:(lia) ltac:(lia) eq_refl) as [out E].
  exists out. split; [exact E|].
  apply (C164_ctm_topics 2 2 2 two_words four (1 / 10) ltac:(lia) ltac:(lia) ltac:(lra) two_counts (fun _ => eye) (fun _ => 0%R) 10 50 sample out two_covers (Nat.lt_0_succ 49) E). lia.
Qed.
Example C164_side_topics_ex : exists out, sample_yv_train sample_yv = Ok out /\ positive_dist 2 (y_vocab out 1).
Proof.
  destruct (C169_side_multiple 2 2 2 two_words four (1 / 10) (fun _ => inv2) 2 2 1 1 two_words (fun _ => 0%R) 10 60 sample_yv ltac:(lia) ltac:(lia) eq_refl) as [out E].
  exists out. split; [exact E|].
  apply (C164_side_topics 2 2 2 two_words four (1 / 10) ltac:(lia) ltac:(lia) ltac:(lra) two_counts (fun _ => inv2) 2 2 1%R 1%R two_words false (fun _ => 0%R) 10 60 sample_yv out two_covers (Nat.lt_0_succ 59) E). lia.
Qed.
Definition sample_next : res bouch := bouch_iter 2 2 2 two_words four (1 / 10) (fun _ => eye) sample.
Definition sample_yv_next : res yv := yv_iter 2 2 2 two_words four (1 / 10) (fun _ => inv2) 2 2 1 1 two_words false sample_yv.
Example C164_ctm_topics_improve_ex : exists st', sample_next = Ok st' /\
  (words_fit 2 2 2 two_words (1 / 10) two_means two_topics <= words_fit 2 2 2 two_words (1 / 10) two_means (b_vocab st'))%R.
Proof.
  eexists. split; [reflexivity|].
  apply (C164_ctm_topics_improve 2 2 2 two_words four (1 / 10) ltac:(lia) ltac:(lia) ltac:(lra) two_counts (fun _ => eye) sample _ two_dists eq_refl).
Qed.
Example C164_side_topics_improve_ex : exists st', sample_yv_next = Ok st' /\
  (words_fit 2 2 2 two_words (1 / 10) two_means two_topics <= words_fit 2 2 2 two_words (1 / 10) two_means (y_vocab st'))%R.
Proof.
  eexists. split; [reflexivity|].
  apply (C164_side_topics_improve 2 2 2 two_words four (1 / 10) ltac:(lia) ltac:(lia) ltac:(lra) two_counts (fun _ => inv2) 2 2 1 1 two_words false sample_yv _ two_dists eq_refl).
Qed.
Example C165_bound_ex : (ln (exp 0 + (exp 3 + 0)) <= 1 + ((0 - 1 - 1) / 2 + neg_jakkola 1 * ((0 - 1) * (0 - 1) - 1 * 1) + ln (1 + exp 1)
  + ((3 - 1 - 2) / 2 + neg_jakkola 2 * ((3 - 1) * (3 - 1) - 2 * 2) + ln (1 + exp 2) + 0)))%R.
Proof.
  apply (C165_bound 2 1 (fun k => if k =? 0 then 1 else 2)%R (fun k => if k =? 0 then 0 else 3)%R ltac:(lia)).
  intros k _. destruct (k =? 0); lra.
Qed.
Example C165_ctm_training_ex : exists st' c, sample_next = Ok st' /\
  (objective 2 2 (b_vocab st') (b_mean st') (diag (fun k => / b_sigT st' k k)) (two_words 1%nat) 0 (sample_xi 1%nat) (two_means 1%nat) (ones 1%nat)
   <= objective 2 2 (b_vocab st') (b_mean st') (diag (fun k => / b_sigT st' k k)) (two_words 1%nat) 0 (sample_xi 1%nat)
        (fun k => b_means st' 1%nat k + c) (b_varcs st' 1%nat))%R.
Proof.
  assert (exists st', sample_next = Ok st') as [st' E] by (eexists; reflexivity).
  destruct (C165_ctm_training 2 2 2 two_words four (1 / 10) (fun _ => eye) sample st' 1 (sample_xi 1) ltac:(lia) ltac:(lia) ltac:(lra) two_counts two_covers eye_nonneg
    (sample_sound 2 2) E ltac:(lia) (fun k _ => sample_lxi_is 1 k)) as [c H].
  exists st', c. split; [exact E|exact H].
Qed.
Example C165_side_training_ex : exists st', sample_yv_next = Ok st' /\
  (objective 2 2 two_topics (stm_mean 2 two_words (y_A st') 1%nat) (diag (fun k => / y_sigT st' k k)) (two_words 1%nat) 0 (sample_xi 1%nat) (two_means 1%nat) (ones 1%nat)
   <= objective 2 2 two_topics (stm_mean 2 two_words (y_A st') 1%nat) (diag (fun k => / y_sigT st' k k)) (two_words 1%nat) 0 (sample_xi 1%nat)
        (y_means st' 1%nat) (y_varcs st' 1%nat))%R.
Proof.
  assert (exists st', sample_yv_next = Ok st') as [st' E] by (eexists; reflexivity). exists st'. split; [exact E|].
  exact (C165_side_training 2 2 2 two_words four (1 / 10) (fun _ => inv2) 2 2 1 1 two_words false sample_yv st' 1 (sample_xi 1) ltac:(lia) two_counts two_covers ltac:(lra) ltac:(lra)
    (sample_sound 2 2) E ltac:(lia) (fun k _ => sample_lxi_is 1 k)).
Qed.
Example C165_side_query_ex :
  let q' := yquery_iter 2 2 two_words four (inv_diag eye) (stm_mean 2 two_words two_means) two_topics sample_query in
  (objective 2 2 two_topics (stm_mean 2 two_words two_means 1%nat) (inv_diag eye) (two_words 1%nat) 0 (sample_xi 1%nat) (two_means 1%nat) (ones 1%nat)
   <= objective 2 2 two_topics (stm_mean 2 two_words two_means 1%nat) (inv_diag eye) (two_words 1%nat) 0 (sample_xi 1%nat) (bq_means q' 1%nat) (bq_varcs q' 1%nat))%R.
Proof.
  exact (C165_side_query 2 2 2 two_words four inv_diag 2 two_words two_means eye two_topics sample_query 1 (sample_xi 1) two_counts two_covers
    (eye_diagonal 2) (inv_diag_ok 2 eye (eye_diagonal 2)) (fresh_sound 2 2 two_means) ltac:(lia) (fun k _ => sample_query_xi 1 k)).
Qed.
Example C166_best_tangents_ex :
  let q' := yquery_iter 2 2 two_words four (inv_diag eye) (stm_mean 2 two_words two_means) two_topics sample_query in
  let root k := sqrt ((bq_means q' 1%nat k - 0) * (bq_means q' 1%nat k - 0) + bq_varcs q' 1%nat k) in
  (objective 2 2 two_topics (stm_mean 2 two_words two_means 1%nat) (inv_diag eye) (two_words 1%nat) 0 (sample_xi 1%nat) (two_means 1%nat) (ones 1%nat)
   <= objective 2 2 two_topics (stm_mean 2 two_words two_means 1%nat) (inv_diag eye) (two_words 1%nat) 0 root (bq_means q' 1%nat) (bq_varcs q' 1%nat))%R.
Proof.
  exact (C166_best_tangents 2 2 2 two_words four inv_diag 2 two_words two_means eye two_topics sample_query 1 (sample_xi 1) two_counts two_covers
    (eye_diagonal 2) (inv_diag_ok 2 eye (eye_diagonal 2)) (fresh_sound 2 2 two_means) ltac:(lia) (fun k _ => sample_query_xi 1 k)).
Qed.
Example C167_two_topics_ex : exists q', bouch_query 2 2 2 two_words four inv_diag (fun _ => 0%R) 0%R 3 (fun _ => 1%R) eye two_topics sample_query = Ok q' /\
  (offset_cost 2 (fun k => bq_lxi q' 1%nat k / 2) (bq_means q' 1%nat) (bq_s q' 1%nat) <= offset_cost 2 (fun k => bq_lxi q' 1%nat k / 2) (bq_means q' 1%nat) 0)%R.
Proof.
  eexists. split; [reflexivity|].
  exact (C167_two_topics 2 2 2 two_words four inv_diag (fun _ => 0%R) 0%R 3 (fun _ => 1%R) eye two_topics sample_query _ 1
    ltac:(lia) ltac:(lia) four_nonneg (inv_diag_pos 2) (fresh_sound 2 2 two_means) eq_refl ltac:(lia) 0%R eq_refl).
Qed.
Example C167_more_topics_ex : exists q' t, bouch_query 3 2 2 two_words four inv_diag (fun _ => 0%R) 0%R 3 (fun _ => 1%R) eye two_topics sample_query = Ok q' /\
  (offset_cost 3 (fun k => bq_lxi q' 1%nat k / 2) (bq_means q' 1%nat) t < offset_cost 3 (fun k => bq_lxi q' 1%nat k / 2) (bq_means q' 1%nat) (bq_s q' 1%nat))%R.
Proof.
  assert (exists q', bouch_query 3 2 2 two_words four inv_diag (fun _ => 0%R) 0%R 3 (fun _ => 1%R) eye two_topics sample_query = Ok q') as [q' E] by (eexists; reflexivity).
  destruct (C167_more_topics 3 2 2 two_words four inv_diag (fun _ => 0%R) 0%R 3 (fun _ => 1%R) eye two_topics sample_query q' 1
    ltac:(lia) ltac:(lia) four_nonneg (inv_diag_pos 3) (fresh_sound 2 3 two_means) E ltac:(lia) ltac:(lia)) as [t H].
  exists q', t. split; [exact E|exact H].
Qed.
Example C168_first_topic_ex : exists out, sample_train sample = Ok out /\ b_means out 1%nat 0%nat = 0%R /\ b_mean out 0%nat = 0%R.
Proof.
  destruct (C169_ctm_multiple 2 2 2 two_words four (1 / 10) (fun _ => eye) (fun _ => 0%R) 10 50 sample ltac:(lia) ltac:(lia) eq_refl) as [out E].
  exists out. split; [exact E|]. split; [exact (C168_first_topic _ _ _ _ _ _ _ _ _ 50 _ _ ltac:(lia) E 1)|exact (C168_prior_of_first_topic _ _ _ _ _ _ _ _ _ 50 _ _ ltac:(lia) E)].
Qed.
Example C169_not_multiple_ex :
  bouch_train 2 2 2 two_words four (1 / 10) (fun _ => eye) (fun _ => 0%R) 10 9 sample = Raise IndexError /\
  yv_train 2 2 2 two_words four (1 / 10) (fun _ => inv2) 2 2 1 1 two_words false (fun _ => 0%R) 10 45 sample_yv = Raise IndexError.
Proof.
  split; [apply C169_ctm_not_multiple|apply C169_side_not_multiple]; try lia; vm_compute; try discriminate; lia.
Qed.
Example C171_bound_is_ex : bouch_bound 2 2 1 ten_words ten inv2 det2 (1 / 1000) (low_means 0%nat) eye one_word low_query
  = (vsum 2 (fun d => objective 2 1 one_word (low_means 0%nat) (inv2 eye) (ten_words d) 0 (fun k => derive_xi (-10) 1 0) (low_means d) (ones d))
     + INR 2 * INR 2 / 2 - INR 2 / 2 * det2 eye - vsum 2 (fun d => 10 * vmax 2 (low_means d)))%R.
Proof.
  apply (C171_bound_is 2 2 1 ten_words ten inv2 det2 (1 / 1000) (low_means 0%nat) eye one_word low_query ltac:(lia) ten_counts (one_covers 2 ltac:(lia))).
  - intros d k _ _. cbn [bq_varcs bq_lxi low_query]. split; [unfold ones; lra|]. apply lxi_range. unfold ones. lra.
  - intros d t _ _. cbn [bq_means low_query]. unfold vmax. cbn [seq map fold_left]. rewrite Rmax_left by (unfold low_means; lra).
    unfold low_means, one_word. two. replace (-10 - -10)%R with 0%R by ring. rewrite exp_0. lra.
  - intros d k _ _. change (bq_lxi low_query d k) with (neg_jakkola (derive_xi (bq_means low_query d k) (bq_varcs low_query d k) (bq_s low_query d))).
    apply neg_jakkola_is. apply Rgt_not_eq. apply xi_pos. cbn [bq_varcs low_query]. unfold ones. lra.
Qed.
Example C172_side_query_ex : exists q', yv_query 2 2 2 no_words (fun _ => 0%R) inv_diag 2 two_words false (fun _ => 0%R) 0%R 5 two_means eye two_topics sample_query = Ok q' /\
  bq_means q' 1%nat 0%nat = stm_mean 2 two_words two_means 1 0.
Proof.
  eexists. split; [reflexivity|].
  apply (C172_side_query 2 2 2 no_words (fun _ => 0%R) inv_diag 2 two_words false (fun _ => 0%R) 0%R 5 two_means eye two_topics sample_query _ 1
    no_counts (eye_diagonal 2) (inv_diag_ok 2 eye (eye_diagonal 2)) ltac:(lia) ltac:(lia) (fun _ _ => eq_refl) eq_refl 0 ltac:(lia)).
Qed.
Example C172_ctm_query_ex : exists q', bouch_query 2 2 2 no_words (fun _ => 0%R) inv2 (fun _ => 0%R) 0%R 5 (two_means 1%nat) eye two_topics sample_query = Ok q' /\
  bq_means q' 1%nat 0%nat = two_means 1%nat 0%nat.
Proof.
  destruct eye_good as [Y1 Y2]. eexists. split; [reflexivity|].
  apply (C172_ctm_query 2 2 2 no_words (fun _ => 0%R) inv2 (fun _ => 0%R) 0%R 5 (two_means 1%nat) eye two_topics sample_query _ 1
    no_counts inv2_inverts Y1 Y2 ltac:(lia) ltac:(lia) (fun _ _ => eq_refl) eq_refl 0 ltac:(lia)).
Qed.
Example C173_features_ex : exists st', sample_yv_next = Ok st' /\
  (1 / 1 * vsum 2 (fun f => (y_A st' 1%nat f - vsum 2 (fun p => y_Y st' 1%nat p * y_V st' p f)) * (y_A st' 1%nat f - vsum 2 (fun p => y_Y st' 1%nat p * y_V st' p f)))
     + vsum 2 (fun d => (two_means d 1%nat - vsum 2 (fun f => two_words d f * y_A st' 1%nat f)) * (two_means d 1%nat - vsum 2 (fun f => two_words d f * y_A st' 1%nat f)))
   <= 1 / 1 * vsum 2 (fun f => (two_means 1%nat f - vsum 2 (fun p => y_Y st' 1%nat p * y_V st' p f)) * (two_means 1%nat f - vsum 2 (fun p => y_Y st' 1%nat p * y_V st' p f)))
     + vsum 2 (fun d => (two_means d 1%nat - vsum 2 (fun f => two_words d f * two_means 1%nat f)) * (two_means d 1%nat - vsum 2 (fun f => two_words d f * two_means 1%nat f))))%R.
Proof.
  assert (exists st', sample_yv_next = Ok st') as [st' E] by (eexists; reflexivity). exists st'. split; [exact E|].
  exact (C173_features 2 2 2 two_words four (1 / 10) (fun _ => inv2) 2 2 1 1 two_words false sample_yv st' ltac:(lra) E 1 (two_means 1) inv2_inverts).
Qed.
Example C173_topic_factor_ex : exists st', sample_yv_next = Ok st' /\
  (1 / 1 * vsum 2 (fun p => y_Y st' 1%nat p * y_Y st' 1%nat p)
     + 1 / 1 * vsum 2 (fun f => (two_means 1%nat f - vsum 2 (fun p => y_V st' p f * y_Y st' 1%nat p)) * (two_means 1%nat f - vsum 2 (fun p => y_V st' p f * y_Y st' 1%nat p)))
   <= 1 / 1 * vsum 2 (fun p => two_topics 1%nat p * two_topics 1%nat p)
     + 1 / 1 * vsum 2 (fun f => (two_means 1%nat f - vsum 2 (fun p => y_V st' p f * two_topics 1%nat p)) * (two_means 1%nat f - vsum 2 (fun p => y_V st' p f * two_topics 1%nat p))))%R.
Proof.
  assert (exists st', sample_yv_next = Ok st') as [st' E] by (eexists; reflexivity). exists st'. split; [exact E|].
  exact (C173_topic_factor 2 2 2 two_words four (1 / 10) (fun _ => inv2) 2 2 1 1 two_words false sample_yv st' ltac:(lra) ltac:(lra) E 1 (two_topics 1) inv2_inverts).
Qed.
Example C173_feature_factor_ex : exists st', sample_yv_next = Ok st' /\
  (quad 2 eye (fun p => y_V st' p 1%nat) (fun p => y_V st' p 1%nat)
     + vsum 2 (fun k => / y_sigT st' k k * ((two_means k 1%nat - vsum 2 (fun p => two_topics k p * y_V st' p 1%nat)) * (two_means k 1%nat - vsum 2 (fun p => two_topics k p * y_V st' p 1%nat))))
   <= quad 2 eye (ones 0%nat) (ones 0%nat)
     + vsum 2 (fun k => / y_sigT st' k k * ((two_means k 1%nat - vsum 2 (fun p => two_topics k p * 1)) * (two_means k 1%nat - vsum 2 (fun p => two_topics k p * 1)))))%R.
Proof.
  destruct eye_good as [Y1 Y2].
  assert (exists st', sample_yv_next = Ok st') as [st' E] by (eexists; reflexivity). exists st'. split; [exact E|].
  exact (C173_feature_factor 2 2 2 two_words four (1 / 10) (fun _ => inv2) 2 2 1 1 two_words false sample_yv st' ltac:(lra) ltac:(lra) E 1 (ones 0) inv2_inverts Y1 Y2 ltac:(lia) (sample_sound 2 2)).
Qed.
Theorem C174_works_refuted : exists K D T W n beta inv F P fv lfv X perp logFrequency iterations st out, counts D T W n /\ doc_sound D K (y_varcs st) (y_lxi st) /\
  (forall k, k < K -> positive_dist T (y_vocab st k)) /\
  yv_train K D T W n beta inv F P fv lfv X false perp logFrequency iterations st = Ok out /\
  yv_train K D T W n beta inv F P fv lfv X true perp logFrequency iterations st = Raise TypeError /\
  yv_train K 1 T W n beta inv F P fv lfv X false perp logFrequency iterations st = Raise IndexError.
Proof.
  destruct (C169_side_multiple 2 2 2 two_words four (1 / 10) (fun _ => inv2) 2 2 1 1 two_words (fun _ => 0%R) 10 60 sample_yv ltac:(lia) ltac:(lia) eq_refl) as [out E].
  exists 2, 2, 2, two_words, four, (1 / 10)%R, (fun _ => inv2), 2, 2, 1%R, 1%R, two_words, (fun _ => 0%R), 10, 60, sample_yv, out.
  split; [exact two_counts|]. split; [exact (sample_sound 2 2)|]. split; [exact two_dists|]. split; [exact E|].
  split; [apply C174_debug_training; lia|].
  exact (proj2 (C174_single_document_training 2 2 two_words four (1 / 10) (fun _ => eye) (fun _ => inv2) 2 2 1 1 two_words (fun _ => 0%R) (fun _ => 0%R) 10 60 sample sample_yv ltac:(lia) ltac:(lia))).
Qed.
Example C174_ex : yv_train 2 2 2 two_words four (1 / 10) (fun _ => inv2) 2 2 1 1 two_words true (fun _ => 0%R) 10 60 sample_yv = Raise TypeError /\
  bouch_train 2 1 2 two_words four (1 / 10) (fun _ => eye) (fun _ => 0%R) 10 50 sample = Raise IndexError.
Proof.
  split; [apply C174_debug_training; lia|].
  exact (proj1 (C174_single_document_training 2 2 two_words four (1 / 10) (fun _ => eye) (fun _ => inv2) 2 2 1 1 two_words (fun _ => 0%R) (fun _ => 0%R) 10 50 sample sample_yv ltac:(lia) ltac:(lia))).
Qed.

Print Assumptions C163_ctm_training.
Print Assumptions C163_side_training.
Print Assumptions C163_ctm_query.
Print Assumptions C163_side_query.
Print Assumptions C164_ctm_topics.
Print Assumptions C164_ctm_topics_improve.
Print Assumptions C164_side_topics.
Print Assumptions C164_side_topics_improve.
Print Assumptions C165_bound.
Print Assumptions C165_ctm_training.
Print Assumptions C165_side_training.
Print Assumptions C165_side_query.
Print Assumptions C166_best_tangents.
Print Assumptions C167_two_topics.
Print Assumptions C167_more_topics.
Print Assumptions C167_best_offset_refuted.
Print Assumptions C166_query_improves_refuted.
Print Assumptions C168_first_topic.
Print Assumptions C168_prior_of_first_topic.
Print Assumptions C168_relabelling_refuted.
Print Assumptions C169_ctm_multiple.
Print Assumptions C169_side_multiple.
Print Assumptions C169_ctm_not_multiple.
Print Assumptions C169_side_not_multiple.
Print Assumptions C169_never_logging.
Print Assumptions C169_any_iterations_refuted.
Print Assumptions C170_side_query_refuted.
Print Assumptions C170_ctm_query_refuted.
Print Assumptions C171_bound_is.
Print Assumptions C171_not_positive_refuted.
Print Assumptions C172_side_query.
Print Assumptions C172_ctm_query.
Print Assumptions C173_features.
Print Assumptions C173_topic_factor.
Print Assumptions C173_feature_factor.
Print Assumptions C174_debug_training.
Print Assumptions C174_debug_query.
Print Assumptions C174_single_document_training.
Print Assumptions C174_single_document_query.
Print Assumptions C174_works_refuted.
