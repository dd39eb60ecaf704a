(** * What the relational topic model learns besides topics, and estimates of priors: C185-C190. *)
From Coq Require Import List Reals ZArith Arith Bool Lra Lia.
From Verif Require Import Base RealModel RealProofs MixModel MixProofs MixProps VbModel VbProofs LinkModel RtmModel RtmProps FakeModel HyperModel DigammaWitness FakeProofs.
Import ListNotations.
Open Scope nat_scope.

(** ** Specification *)
(** The digamma function is increasing. *)
Definition increasing (psi : R -> R) : Prop := forall x y, (0 < x)%R -> (x < y)%R -> (psi x < psi y)%R.
(** Log-probability of the topics of the tokens, [n d k] tokens of document d with topic k, when
    the topic shares of a document are drawn from a Dirichlet distribution with parameters [a]
    (the Polya distribution, without gamma functions). *)
Definition polya (K D : nat) (n : nat -> nat -> nat) (a : vec) : R :=
  vsum D (fun d => vsum K (fun k => vsum (n d k) (fun i => ln (a k + INR i)))
                   - vsum (list_sum (map (n d) (seq 0 K))) (fun i => ln (vsum K a + INR i)))%R.

(** ** C185: the prior *)
Lemma vsum_lt n v w : 0 < n -> (forall i, i < n -> (v i < w i)%R) -> (vsum n v < vsum n w)%R.
Proof.
  intros Hn H. assert (0 < vsum n (fun i => w i - v i))%R.
  { apply vsum_pos; [exact Hn|]. intros i Hi. specialize (H i Hi). lra. }
  rewrite (vsum_ext _ _ (fun i => w i + (-1) * v i)%R) in H0 by (intros; ring). rewrite vsum_plus, vsum_scale in H0. lra.
Qed.
Lemma vsum_others K (a : vec) k : 2 <= K -> k < K -> (forall j, j < K -> (0 < a j)%R) -> (a k < vsum K a)%R.
Proof.
  intros H2 Hk Ha. set (o := if k =? 0 then 1 else 0). assert (Ho : o < K /\ o <> k) by (unfold o; destruct (Nat.eqb_spec k 0); lia).
  pose proof (vsum_in_le K (fun j => if j =? k then 0 else a j)%R o) as H. cbv beta in H.
  assert (Hnn : forall i, i < K -> (0 <= (if i =? k then 0 else a i))%R). { intros i Hi. destruct (i =? k); [lra|specialize (Ha i Hi); lra]. }
  specialize (H Hnn (proj1 Ho)). destruct (Nat.eqb_spec o k); [lia|].
  assert (E : vsum K a = (vsum K (fun j => if j =? k then 0 else a j) + a k)%R).
  { rewrite (vsum_ext K a (fun j => (if j =? k then 0 else a j) + (if j =? k then a k else 0))%R).
    2:{ intros j Hj. destruct (Nat.eqb_spec j k) as [->|]; ring. }
    rewrite vsum_plus. f_equal. clear - Hk. induction K as [|K IH]; [lia|]. unfold vsum in *. rewrite seq_S, map_app, rsum_app. cbn [map rsum plus].
    destruct (Nat.eq_dec k K) as [->|].
    - rewrite Nat.eqb_refl. rewrite (rsum_ext _ (fun _ => 0%R) (seq 0 K)).
      2:{ intros j Hj. apply in_seq in Hj. destruct (Nat.eqb_spec j K); [lia|reflexivity]. }
      fold (vsum K (fun _ => 0%R)). rewrite vsum_const. ring.
    - rewrite IH by lia. destruct (Nat.eqb_spec K k); [lia|]. ring. }
  specialize (Ha o (proj1 Ho)). lra.
Qed.

Section shrink.
  Context (psi : R -> R) (K D : nat) (lens : vec) (n : mat).
  Context (Hpsi : increasing psi) (HK : 2 <= K) (HD : 0 < D).
  Context (Hn : forall d k, d < D -> k < K -> (0 < n d k <= lens d)%R).
  Lemma step_lower counts prior : (forall k, k < K -> (0 < prior k)%R) -> (forall d k, d < D -> k < K -> counts d k = (n d k + prior k)%R) ->
    forall k, k < K -> (0 < prior_step psi K D lens counts prior k < prior k)%R.
  Proof.
    intros Hp Hc k Hk. unfold prior_step. set (numer := (vsum D (fun d => psi (counts d k)) - INR D * psi (prior k))%R).
    set (denom := (vsum D (fun d => psi (lens d + vsum K prior)%R) - INR D * psi (prior k))%R). cbv zeta.
    pose proof (vsum_others K prior k HK Hk Hp) as Ho.
    assert (N : (0 < numer)%R).
    { unfold numer. rewrite <- vsum_const. apply Rlt_Rminus. apply vsum_lt; [exact HD|]. intros d Hd. rewrite (Hc d k Hd Hk).
      apply Hpsi; [apply Hp, Hk|]. destruct (Hn d k Hd Hk). lra. }
    assert (M : (numer < denom)%R).
    { unfold numer, denom. apply Rplus_lt_compat_r. apply vsum_lt; [exact HD|]. intros d Hd. rewrite (Hc d k Hd Hk).
      destruct (Hn d k Hd Hk). specialize (Hp k Hk). apply Hpsi; lra. }
    specialize (Hp k Hk).
    assert (Q : (0 < numer / denom < 1)%R).
    { split; [apply Rdiv_lt_0_compat; lra|]. apply Rmult_lt_reg_r with denom; [lra|]. unfold Rdiv. rewrite Rmult_assoc, Rinv_l by lra. lra. }
    split; [apply Rmult_lt_0_compat; lra|]. rewrite <- (Rmult_1_r (prior k)) at 2. apply Rmult_lt_compat_l; lra.
  Qed.
  Lemma loop_lower keep cols : (forall v k, k < K -> keep v k = v k) ->
    forall m counts old prior, (forall k, k < K -> (0 < prior k)%R) -> (forall d k, d < D -> k < K -> counts d k = (n d k + old k)%R) ->
    forall k, k < K -> (0 < prior_loop psi keep cols K D lens m counts old prior k <= prior k)%R /\
                       (0 < m -> (prior_loop psi keep cols K D lens m counts old prior k < prior k)%R).
  Proof.
    intros Hkeep. induction m as [|m IH]; intros counts old prior Hp Hc k Hk.
    - cbn [prior_loop]. specialize (Hp k Hk). split; [lra|lia].
    - cbn [prior_loop]. set (c' := fun d k => (counts d k + (prior k - old k))%R).
      assert (Hc' : forall d k, d < D -> k < K -> c' d k = (n d k + prior k)%R) by (intros d j Hd Hj; unfold c'; rewrite (Hc d j Hd Hj); ring).
      assert (S : forall k, k < K -> (0 < keep (prior_step psi K D lens c' prior) k < prior k)%R).
      { intros j Hj. rewrite Hkeep by exact Hj. apply step_lower; assumption. }
      destruct (rltb _ _).
      + destruct (S k Hk). split; [lra|intros _; lra].
      + destruct (IH c' prior (keep (prior_step psi K D lens c' prior)) (fun j Hj => proj1 (S j Hj)) Hc' k Hk) as [I1 I2].
        destruct (S k Hk). split; [lra|intros _; lra].
  Qed.
End shrink.

(** Whatever the documents, every entry of the prior gets lower. *)
Theorem C185_always_lower psi K D lens means prior : increasing psi -> 2 <= K -> 0 < D ->
  (forall d, d < D -> (0 < lens d)%R) -> (forall d k, d < D -> k < K -> (0 < means d k <= 1)%R) -> (forall k, k < K -> (0 < prior k)%R) ->
  (forall k, k < K -> (0 < rtm_prior psi K D lens means prior k < prior k)%R) /\ rtm_prior psi K D lens means prior K = 0%R.
Proof.
  intros Hpsi HK HD Hl Hm Hp. split; [|unfold rtm_prior, set_at; rewrite Nat.eqb_refl; reflexivity].
  intros k Hk. unfold rtm_prior. cbv zeta.
  assert (E : forall (v : vec) x j, j < K -> set_at v K x j = v j) by (intros v x j Hj; unfold set_at; destruct (Nat.eqb_spec j K); [lia|reflexivity]).
  rewrite (E _ 0%R k Hk).
  assert (Hn : forall d k, d < D -> k < K -> (0 < means d k * lens d <= lens d)%R).
  { intros d j Hd Hj. destruct (Hm d j Hd Hj). specialize (Hl d Hd). split; [apply Rmult_lt_0_compat; lra|]. rewrite <- (Rmult_1_l (lens d)) at 2. apply Rmult_le_compat_r; lra. }
  destruct (loop_lower psi K D lens (fun d k => means d k * lens d)%R Hpsi HK HD Hn (fun v => set_at v K 1%R) (S K)) with (m := 100)
    (counts := fun d k => (means d k * lens d + prior k)%R) (old := set_at prior K 1%R) (prior := set_at prior K 1%R) (k := k) as [I1 I2].
  - intros v j Hj. apply E, Hj.
  - intros j Hj. rewrite E by exact Hj. apply Hp, Hj.
  - intros d j Hd Hj. rewrite E by exact Hj. reflexivity.
  - exact Hk.
  - specialize (I2 ltac:(lia)). rewrite (E prior 1%R k Hk) in I2. split; [apply I1|exact I2].
Qed.
(** The same in lda_vb_python, but for a smallest prior. *)
Theorem C185_vb_always_lower psi K D lens means prior : increasing psi -> 2 <= K -> 0 < D ->
  (forall d, d < D -> (0 < lens d)%R) -> (forall d k, d < D -> k < K -> (0 < means d k <= 1)%R) -> (forall k, k < K -> (0 < prior k)%R) ->
  forall k, k < K -> (/ 1000000 <= vb_prior psi K D lens means prior k)%R /\ (/ 1000000 < prior k -> vb_prior psi K D lens means prior k < prior k)%R.
Proof.
  intros Hpsi HK HD Hl Hm Hp k Hk. unfold vb_prior. replace (1 / IZR (10 ^ 6))%R with (/ 1000000)%R by (cbn; lra).
  assert (Hn : forall d k, d < D -> k < K -> (0 < means d k * lens d <= lens d)%R).
  { intros d j Hd Hj. destruct (Hm d j Hd Hj). specialize (Hl d Hd). split; [apply Rmult_lt_0_compat; lra|]. rewrite <- (Rmult_1_l (lens d)) at 2. apply Rmult_le_compat_r; lra. }
  destruct (loop_lower psi K D lens (fun d k => means d k * lens d)%R Hpsi HK HD Hn (fun v => v) K ltac:(reflexivity) 100
    (fun d k => (means d k * lens d + prior k)%R) prior prior Hp ltac:(reflexivity) k Hk) as [I1 I2]. specialize (I2 ltac:(lia)).
  split; [apply Rmax_r|]. intros H. apply Rmax_lub_lt; [exact I2|exact H].
Qed.

Lemma loop_even psi cols D lens keep : (forall v k, k < 2 -> keep v k = v k) ->
  forall m counts old prior, prior 0 = prior 1 -> old 0 = old 1 -> (forall d, d < D -> counts d 0 = counts d 1) ->
  prior_loop psi keep cols 2 D lens m counts old prior 0 = prior_loop psi keep cols 2 D lens m counts old prior 1.
Proof.
  intros Hkeep. induction m as [|m IH]; intros counts old prior Hp Ho Hc; [exact Hp|]. cbn [prior_loop].
  set (c' := fun d k => (counts d k + (prior k - old k))%R).
  assert (Hc' : forall d, d < D -> c' d 0 = c' d 1) by (intros d Hd; unfold c'; rewrite (Hc d Hd), Hp, Ho; reflexivity).
  assert (E : keep (prior_step psi 2 D lens c' prior) 0 = keep (prior_step psi 2 D lens c' prior) 1).
  { rewrite !Hkeep by lia. unfold prior_step. cbv zeta. rewrite <- Hp. rewrite (vsum_ext D (fun d => psi (c' d 0)) (fun d => psi (c' d 1))); [reflexivity|].
    intros d Hd. rewrite (Hc' d Hd). reflexivity. }
  destruct (rltb _ _); [exact E|]. apply IH; [exact E|exact Hp|exact Hc'].
Qed.
(** So the update can make the topics less probable, when it should make them more so: here
    every document has one token of each of two topics. *)
Lemma even_likely D (a : vec) : 0 < D -> a 0 = a 1 -> (0 < a 0%nat)%R -> polya 2 D (fun _ _ => 1) a = (INR D * ln (a 0%nat / (2 * (2 * a 0%nat + 1))))%R.
Proof.
  intros HD E Ha. unfold polya. rewrite vsum_const. f_equal. unfold vsum. cbn [seq map rsum list_sum fold_right plus INR]. rewrite <- E.
  rewrite !Rplus_0_r, !Rplus_0_l || rewrite !Rplus_0_r. unfold Rdiv. rewrite ln_mult, ln_Rinv, ln_mult by (try apply Rinv_0_lt_compat; lra).
  replace (a 0%nat + a 0%nat)%R with (2 * a 0%nat)%R by ring. rewrite ln_mult by lra. ring.
Qed.
Lemma prior_even psi D lens means prior m : prior 0 = prior 1 -> (forall d, d < D -> means d 0 = means d 1) ->
  let counts := fun d k => (means d k * lens d + prior k)%R in let start := set_at prior 2 1%R in
  set_at (prior_loop psi (fun v => set_at v 2 1%R) 3 2 D lens m counts start start) 2 0%R 0 = set_at (prior_loop psi (fun v => set_at v 2 1%R) 3 2 D lens m counts start start) 2 0%R 1.
Proof.
  intros Hp Hm counts start. assert (E : forall (v : vec) x j, j < 2 -> set_at v 2 x j = v j) by (intros v x j Hj; unfold set_at; destruct (Nat.eqb_spec j 2); [lia|reflexivity]).
  rewrite (E _ 0%R 0), (E _ 0%R 1) by lia. apply loop_even.
  - intros v k Hk. apply E, Hk.
  - unfold start. rewrite !E by lia. exact Hp.
  - unfold start. rewrite !E by lia. exact Hp.
  - intros d Hd. unfold counts. rewrite (Hm d Hd), Hp. reflexivity.
Qed.
Lemma lower_less_likely D (r p : vec) : 0 < D -> r 0 = r 1 -> p 0 = p 1 -> (0 < r 0%nat < p 0%nat)%R ->
  (polya 2 D (fun _ _ => 1%nat) r < polya 2 D (fun _ _ => 1%nat) p)%R.
Proof.
  intros HD Er Ep H. rewrite (even_likely D r HD Er ltac:(lra)), (even_likely D p HD Ep ltac:(lra)).
  generalize dependent (r 0). generalize dependent (p 0). intros a _ x _ H.
  apply Rmult_lt_compat_l; [apply lt_0_INR; exact HD|]. apply ln_increasing; [apply Rdiv_lt_0_compat; lra|].
  apply Rmult_lt_reg_r with (2 * (2 * a + 1) * (2 * (2 * x + 1)))%R; [apply Rmult_lt_0_compat; lra|].
  replace (x / (2 * (2 * x + 1)) * (2 * (2 * a + 1) * (2 * (2 * x + 1))))%R with (x * (2 * (2 * a + 1)))%R by (field; lra).
  replace (a / (2 * (2 * a + 1)) * (2 * (2 * a + 1) * (2 * (2 * x + 1))))%R with (a * (2 * (2 * x + 1)))%R by (field; lra). nra.
Qed.
Theorem C185_less_likely psi D a prior : increasing psi -> 0 < D -> (0 < a)%R -> prior 0 = a -> prior 1 = a ->
  (polya 2 D (fun _ _ => 1%nat) (rtm_prior psi 2 D (fun _ => 2) (fun _ _ => / 2) prior) < polya 2 D (fun _ _ => 1%nat) prior)%R.
Proof.
  intros Hpsi HD Ha P0 P1.
  assert (Ep : forall k, k < 2 -> prior k = a) by (intros [|[|k]] Hk; [exact P0|exact P1|lia]).
  destruct (C185_always_lower psi 2 D (fun _ => 2%R) (fun _ _ => / 2)%R prior Hpsi ltac:(lia) HD) as [L _].
  { intros; lra. } { intros; lra. } { intros k Hk. rewrite Ep by exact Hk. exact Ha. }
  apply lower_less_likely; [exact HD| |rewrite P0, P1; reflexivity|exact (L 0 ltac:(lia))].
  exact (prior_even psi D (fun _ => 2%R) (fun _ _ => / 2)%R prior 100 (eq_trans P0 (eq_sym P1)) ltac:(reflexivity)).
Qed.
Theorem C185_likelihood_refuted : exists psi K D lens means n prior,
  increasing psi /\ (forall x, (0 < x)%R -> psi (x + 1)%R = (psi x + / x)%R) /\ 2 <= K /\ 0 < D /\
  (forall d k, d < D -> k < K -> (0 < means d k)%R /\ INR (n d k) = (means d k * lens d)%R) /\ (forall k, k < K -> (0 < prior k)%R) /\
  (polya K D n (rtm_prior psi K D lens means prior) < polya K D n prior)%R.
Proof.
  exists psi_witness, 2, 3, (fun _ => 2%R), (fun _ _ => / 2)%R, (fun _ _ => 1), (set_at (fun _ => 1%R) 2 0%R).
  split; [exact psi_witness_increasing|]. split; [exact psi_witness_recurrence|]. do 2 (split; [lia|]).
  split; [intros; cbn [INR]; lra|]. split; [intros k Hk; unfold set_at; destruct (Nat.eqb_spec k 2); [lia|lra]|].
  apply (C185_less_likely psi_witness 3 1); [exact psi_witness_increasing|lia|lra|reflexivity|reflexivity].
Qed.

(** *** In training *)
Section training.
  Context (psi pdf probit : R -> R) (minNonZero : R) (K T : nat).
  Context (docs : list words) (docLens : vec) (links : list (list nat)) (vp negCount reg : R) (conv : nat -> rstate -> bool).
  Let D := length docs.
  Definition learn_weights (w : vec) (m : mat) (p : vec) : res vec := Ok (infer_weights pdf probit K links m p negCount reg w).
  Definition learn_prior (p : vec) (m : mat) : vec := rtm_prior psi K (length docs) docLens m p.
  Notation visits := (rtm_visits psi pdf probit minNonZero K T docs docLens links).
  Notation iteration := (rtm_iteration psi pdf probit minNonZero K T docs docLens links vp learn_weights conv learn_prior).
  Notation iterations := (rtm_iterations psi pdf probit minNonZero K T docs docLens links vp learn_weights conv learn_prior).
  Notation train := (rtm_train psi pdf probit minNonZero K T docs docLens links vp learn_weights conv learn_prior).

  Lemma new_mean_pos doc z len k : length z = length doc -> Forall (dist K) z -> Forall (fun e => (0 <= snd e)%R) doc ->
    len = tokens doc -> (1 <= len)%R -> k < K -> (0 < new_mean doc z len k)%R.
  Proof.
    intros L F P E H Hk. unfold new_mean. apply Rdiv_lt_0_compat; [|lra].
    assert (Ht : (0 < tokens doc)%R) by lra. clear E H. revert z L F. induction doc as [|[u x] doc IH]; intros [|zc z] L F; try discriminate.
    { unfold tokens in Ht. cbn in Ht. lra. }
    inversion P as [|? ? P1 P2]; subst. inversion F as [|? ? F1 F2]; subst. cbn [combine map rsum]. cbn [snd] in P1.
    pose proof (dist_nth K zc k F1 Hk) as Hz.
    assert (Hr : (0 <= rsum (map (fun '((_, x), zc) => nth k zc 0 * x) (combine doc z)))%R).
    { apply rsum_nonneg, Forall_forall. intros y Hy. apply in_map_iff in Hy as ([[v y'] zc'] & <- & I).
      pose proof (in_combine_l _ _ _ _ I) as I1. apply in_combine_r in I. rewrite Forall_forall in F2, P2.
      pose proof (dist_nth K zc' k (F2 _ I) Hk). specialize (P2 _ I1). cbn in P2. apply Rmult_le_pos; lra. }
    destruct (Rlt_dec 0 x) as [Hx|Hx].
    - assert (0 < nth k zc 0 * x)%R by (apply Rmult_lt_0_compat; lra). lra.
    - assert (x = 0%R) by lra. subst x. rewrite Rmult_0_r, Rplus_0_l. apply IH; [exact P2| |cbn in L; lia|exact F2].
      unfold tokens in *. cbn [map rsum snd] in Ht. lra.
  Qed.
  Lemma visits_pos word weights prior : 0 < K -> corpus T docs docLens ->
    forall ds means grad means' grad', visits ds word weights prior (means, grad) = Ok (means', grad') ->
    forall d k, k < K -> ((In d ds -> (0 < means' d k)%R) /\ (~ In d ds -> means' d k = means d k)).
  Proof.
    intros HK [HF HL]. induction ds as [|d ds IH]; intros means grad means' grad' E i k Hk.
    { injection E as <- <-. split; [intros []|reflexivity]. }
    cbn [rtm_visits] in E. unfold rtm_visit, get_ in E.
    destruct (nth_error docs d) as [doc|] eqn:ED; cbn [bind] in E; [|discriminate].
    destruct (nth_error links d) as [linked|] eqn:EL; cbn [bind] in E; [|discriminate].
    destruct (forallb _ _); [|discriminate].
    match type of E with context [rtm_infer _ _ _ _ _ _ ?l _ _] => set (link := l) in E end.
    destruct (rtm_infer_ok psi pdf probit K docs learn_weights conv learn_prior doc (docLens d) (means d) prior link (fun k t => psi (word k t)) (fun k => psi (vsum T (word k))) HK) as (z & EZ & Lz & Fz).
    rewrite EZ in E. cbn [bind] in E. destruct (IH _ _ _ _ E i k Hk) as [I1 I2].
    assert (Hd : d < length docs) by (apply nth_error_Some; rewrite ED; discriminate). destruct (HL d Hd) as [HL1 HL2].
    rewrite (nth_error_nth docs d [] ED) in HL1. rewrite Forall_forall in HF. destruct (HF doc (nth_error_In _ _ ED)) as [_ FP].
    assert (P : Forall (fun e => (0 <= snd e)%R) doc) by (eapply Forall_impl; [|exact FP]; intros e He; apply He).
    assert (N : d = i -> (0 < set_topics K means d (new_mean doc z (docLens d)) i k)%R).
    { intros ->. unfold set_topics. rewrite Nat.eqb_refl. replace (k <? K) with true by (symmetry; apply Nat.ltb_lt; exact Hk). cbn [andb].
      apply new_mean_pos; assumption. }
    split.
    - intros Hi. destruct (in_dec Nat.eq_dec i ds) as [I|I]; [exact (I1 I)|]. rewrite (I2 I). destruct Hi as [Hi|Hi]; [exact (N Hi)|contradiction].
    - intros Hi. rewrite I2 by (intros I; apply Hi; right; exact I). unfold set_topics.
      destruct (Nat.eqb_spec i d) as [->|]; [exfalso; apply Hi; left; reflexivity|reflexivity].
  Qed.

  Definition lower (p q : vec) : Prop := forall k, k < K -> (0 < p k <= q k)%R.
  Definition strictly_lower (p q : vec) : Prop := forall k, k < K -> (0 < p k < q k)%R.
  Lemma iteration_prior log_freq itr s s' b : increasing psi -> 2 <= K -> 0 < D -> corpus T docs docLens -> links_ok docs links ->
    (forall k, k < K -> (0 < r_prior s k)%R) -> iteration log_freq itr s = Ok (s', b) ->
    lower (r_prior s') (r_prior s) /\ (b = false -> 0 < itr -> itr mod 5 = 0 -> strictly_lower (r_prior s') (r_prior s)) /\
    (b = true -> conv itr s' = true).
  Proof.
    intros Hpsi HK HD HC HLk Hp E. unfold rtm_iteration in E. cbv zeta in E.
    destruct (rtm_visits_spec psi pdf probit minNonZero K T docs docLens links learn_weights conv learn_prior (r_word s) (r_weights s) (r_prior s) ltac:(lia) HC HLk (seq 0 (length docs)) (r_means s) (fun _ _ => vp))
      as (m & g & EV & _ & _ & M1 & _).
    { intros d Hd. apply in_seq in Hd. lia. }
    rewrite EV in E. cbn [bind learn_weights] in E. destruct (log_freq =? 0); [discriminate|].
    assert (Hsame : lower (r_prior s) (r_prior s)) by (intros k Hk; specialize (Hp k Hk); lra).
    destruct ((itr mod log_freq =? 0) && conv itr _) eqn:EC; remember ((0 <? itr) && (itr mod 5 =? 0)) as due eqn:Edue.
    - injection E as <- <-. cbn [r_prior]. split; [exact Hsame|]. split; [discriminate|]. intros _. apply andb_prop in EC. apply EC.
    - injection E as <- <-. cbn [r_prior].
      assert (HS : strictly_lower (learn_prior (r_prior s) m) (r_prior s)).
      { destruct (C185_always_lower psi K D docLens m (r_prior s) Hpsi HK HD) as [L _].
        - intros d Hd. destruct HC as [_ HL]. destruct (HL d Hd). lra.
        - intros d k Hd Hk. assert (Hin : In d (seq 0 (length docs))) by (apply in_seq; unfold D in Hd; lia).
          split; [apply (visits_pos (r_word s) (r_weights s) (r_prior s) ltac:(lia) HC _ _ _ _ _ EV d k Hk); exact Hin|].
          destruct (M1 d) as [MP _]. destruct (MP Hin) as [Q1 Q2]. rewrite <- Q2. apply vsum_in_le; assumption.
        - exact Hp.
        - exact L. }
      split; [|split; [|discriminate]].
      + destruct due; [|exact Hsame]. intros k Hk. specialize (HS k Hk). lra.
      + intros _ Hi H5. replace due with true; [exact HS|]. subst due. rewrite H5. symmetry. apply andb_true_intro. split; [apply Nat.ltb_lt; exact Hi|reflexivity].
  Qed.
  Lemma lower_trans p q r : lower p q -> lower q r -> lower p r.
  Proof. intros A B k Hk. specialize (A k Hk). specialize (B k Hk). lra. Qed.
  Lemma iterations_prior log_freq : increasing psi -> 2 <= K -> 0 < D -> corpus T docs docLens -> links_ok docs links ->
    forall n itr s s', (forall k, k < K -> (0 < r_prior s k)%R) -> iterations log_freq n itr s = Ok s' ->
    lower (r_prior s') (r_prior s) /\
    ((forall i st, conv i st = false) -> itr <= 5 < itr + n -> strictly_lower (r_prior s') (r_prior s)).
  Proof.
    intros Hpsi HK HD HC HLk. induction n as [|n IH]; intros itr s s' Hp E.
    { injection E as <-. split; [intros k Hk; specialize (Hp k Hk); lra|lia]. }
    cbn [rtm_iterations] in E. destruct (iteration log_freq itr s) as [[s1 b]|e] eqn:EI; cbn [bind fst snd] in E; [|discriminate].
    destruct (iteration_prior log_freq itr s s1 b Hpsi HK HD HC HLk Hp EI) as [L1 [L2 L3]].
    destruct b.
    - injection E as <-. split; [exact L1|]. intros Hc. rewrite (Hc itr s1) in L3. specialize (L3 eq_refl). discriminate.
    - destruct (IH (S itr) s1 s' (fun k Hk => proj1 (L1 k Hk)) E) as [I1 I2]. split; [exact (lower_trans _ _ _ I1 L1)|].
      intros Hc Hi k Hk. destruct (Nat.eq_dec itr 5) as [->|N].
      + specialize (L2 eq_refl ltac:(lia) eq_refl k Hk). specialize (I1 k Hk). lra.
      + specialize (I2 Hc ltac:(lia) k Hk). specialize (L1 k Hk). lra.
  Qed.
  (** No training raises the prior of a topic; with more than five iterations every one gets lower. *)
  Theorem C185_training_never_raises log_freq n s s' : increasing psi -> 2 <= K -> 0 < D -> corpus T docs docLens -> links_ok docs links ->
    (forall k, k < K -> (0 < r_prior s k)%R) -> train log_freq n s true = Ok s' ->
    (forall k, k < K -> (0 < r_prior s' k <= r_prior s k)%R) /\
    ((forall i st, conv i st = false) -> 5 < n -> forall k, k < K -> (r_prior s' k < r_prior s k)%R).
  Proof.
    intros Hpsi HK HD HC HLk Hp E. unfold rtm_train in E. rewrite (lens_ok psi pdf probit T docs docLens vp learn_weights conv learn_prior HC) in E. cbv zeta in E.
    match type of E with context [rtm_iterations _ _ _ _ _ _ _ _ _ _ _ _ _ _ _ 0 ?s0] => set (st0 := s0) in E end.
    destruct (iterations log_freq n 0 st0) as [s1|e] eqn:E1; cbn [bind] in E; [|discriminate]. injection E as <-. cbn [r_prior].
    destruct (iterations_prior log_freq Hpsi HK HD HC HLk n 0 st0 s1 Hp E1) as [I1 I2]. split; [exact I1|].
    intros Hc Hn k Hk. apply (I2 Hc ltac:(lia) k Hk).
  Qed.
End training.

(** ** C186: the regulariser *)
Lemma step_size_range t : (0 < step_size t < 1)%R.
Proof.
  unfold step_size. pose proof (pos_INR t). split; [apply exp_pos|].
  apply Rlt_le_trans with (Rpower (5 + INR t) 0); [apply Rpower_lt; lra|]. rewrite Rpower_O; lra.
Qed.
(** Weights that a step leaves alone are stationary under the strength [1 - reg], not [reg]. *)
Theorem C186_fixed_points pdf probit K links means prior negCount reg t w k :
  weight_step pdf probit K links means prior negCount reg t w k = w k <->
  ((1 - reg) * w k = pseudo_error pdf probit K prior negCount w k + link_errors pdf probit K links means w k)%R.
Proof.
  unfold weight_step, weight_grad. pose proof (step_size_range t) as H.
  set (p := pseudo_error _ _ _ _ _ w k). set (l := link_errors _ _ _ _ _ w k). set (s := step_size t) in *. split; intros E.
  - apply Rmult_eq_reg_l with s; [|lra]. lra.
  - replace (reg * w k + p + l)%R with (w k); [ring|]. lra.
Qed.
Section without_links.
  Context (pdf probit : R -> R) (K : nat) (links : list (list nat)) (means : mat) (prior : vec) (reg : R).
  Context (Hl : visited_links links = []).
  Notation step := (weight_step pdf probit K links means prior 0 reg).
  Notation loop := (weight_loop pdf probit K links means prior 0 reg).
  Lemma step_is t w k : step t w k = (w k * (1 - step_size t * (1 - reg)))%R.
  Proof. unfold weight_step, weight_grad, pseudo_error, link_errors. rewrite Hl. cbn [map rsum]. ring. Qed.
  Lemma loop_one n t w k : reg = 1%R -> loop n t w k = w k.
  Proof.
    intros E. revert t w. induction n as [|n IH]; intros t w; [reflexivity|]. cbn [weight_loop]. destruct (rltb _ _); [|rewrite IH]; rewrite step_is, E; ring.
  Qed.
  Lemma loop_less n t w k : (0 <= reg < 1)%R -> (0 < w k)%R -> 0 < n -> (0 < loop n t w k < w k)%R.
  Proof.
    intros E. revert t w. induction n as [|n IH]; intros t w Hw Hn; [lia|]. cbn [weight_loop].
    assert (S : (0 < step t w k < w k)%R).
    { rewrite step_is. pose proof (step_size_range t) as [S1 S2]. set (s := step_size t) in *.
      assert (0 < s * (1 - reg) <= s)%R by (split; [apply Rmult_lt_0_compat; lra|rewrite <- (Rmult_1_r s) at 2; apply Rmult_le_compat_l; lra]).
      split; [apply Rmult_lt_0_compat; lra|]. rewrite <- (Rmult_1_r (w k)) at 2. apply Rmult_lt_compat_l; lra. }
    destruct (rltb _ _); [exact S|]. destruct n as [|n]; [exact S|]. destruct (IH (Datatypes.S t) (step t w) (proj1 S) ltac:(lia)). lra.
  Qed.
  Lemma loop_more n t w k : (1 < reg)%R -> (0 < w k)%R -> 0 < n -> (w k < loop n t w k)%R.
  Proof.
    intros E. revert t w. induction n as [|n IH]; intros t w Hw Hn; [lia|]. cbn [weight_loop].
    assert (S : (w k < step t w k)%R).
    { rewrite step_is. pose proof (step_size_range t) as [S1 S2]. set (s := step_size t) in *.
      assert (0 < s * (reg - 1))%R by (apply Rmult_lt_0_compat; lra).
      rewrite <- (Rmult_1_r (w k)) at 1. apply Rmult_lt_compat_l; lra. }
    destruct (rltb _ _); [exact S|]. destruct n as [|n]; [exact S|]. pose proof (IH (Datatypes.S t) (step t w) ltac:(lra) ltac:(lia)). lra.
  Qed.
End without_links.
(** Without links and pseudo-negatives only the regulariser acts: a strength of one leaves the weights alone, a smaller one
    makes them smaller, and a larger one larger. *)
Theorem C186_regularizer_alone pdf probit K links means prior reg w k : visited_links links = [] -> (0 < w k)%R ->
  let w' := infer_weights pdf probit K links means prior 0 reg w in
  (reg = 1%R -> w' k = w k) /\ ((0 <= reg < 1)%R -> (0 < w' k < w k)%R) /\ ((1 < reg)%R -> (w k < w' k)%R).
Proof.
  intros Hl Hw w'. unfold w', infer_weights. generalize (Nat.lt_0_succ 99). generalize 100. intros n Hn. split; [|split]; intros H.
  - apply loop_one; assumption.
  - apply loop_less; assumption.
  - apply loop_more; assumption.
Qed.
Theorem C186_strength_refuted : exists pdf probit K links means prior weak strong w k, (0 <= weak < strong)%R /\ k < K /\
  (0 < infer_weights pdf probit K links means prior 0 weak w k < infer_weights pdf probit K links means prior 0 strong w k)%R.
Proof.
  exists (fun _ => 1%R), (fun _ => / 2)%R, 2, [[]; []], (fun _ _ => / 2)%R, (fun _ => 1%R), (/ 1000)%R, 2%R, (fun _ => 1%R), 0.
  split; [lra|]. split; [lia|].
  destruct (C186_regularizer_alone (fun _ => 1%R) (fun _ => / 2)%R 2 [[]; []] (fun _ _ => / 2)%R (fun _ => 1%R) (/ 1000) (fun _ => 1%R) 0 eq_refl ltac:(lra)) as [_ [A _]].
  destruct (C186_regularizer_alone (fun _ => 1%R) (fun _ => / 2)%R 2 [[]; []] (fun _ _ => / 2)%R (fun _ => 1%R) 2 (fun _ => 1%R) 0 eq_refl ltac:(lra)) as [_ [_ B]].
  specialize (A ltac:(lra)). specialize (B ltac:(lra)). split; [exact (proj1 A)|]. exact (Rlt_trans _ _ _ (proj2 A) B).
Qed.

(** ** C187: the gradient of the link predictor *)
(** Density and distribution function of a symmetric distribution, as the normal one. *)
Definition normal_like (pdf probit : R -> R) : Prop :=
  (forall x, derivable_pt_lim probit x (pdf x)) /\ (forall x, (0 < pdf x)%R) /\ (forall x, (0 < probit x < 1)%R) /\
  (forall x, probit (- x)%R = (1 - probit x)%R).
Lemma lim_eq f x l l' : derivable_pt_lim f x l -> l = l' -> derivable_pt_lim f x l'.
Proof. intros H <-. exact H. Qed.
Lemma w_dot_at K w k x f : k <= K -> w_dot K (set_at w k x) f = (w_dot K w f + (x - w k) * f k)%R.
Proof.
  intros Hk. unfold w_dot.
  rewrite (vsum_ext (S K) (fun j => f j * set_at w k x j)%R (fun j => f j * w j + (if j =? k then (x - w k) * f k else 0))%R).
  2:{ intros j Hj. unfold set_at. destruct (Nat.eqb_spec j k) as [->|]; ring. }
  rewrite vsum_plus. f_equal. assert (H : k < S K) by lia. clear Hk. induction (S K) as [|n IH]; [lia|].
  unfold vsum in *. rewrite seq_S, map_app, rsum_app. cbn [map rsum plus]. destruct (Nat.eq_dec k n) as [->|].
  - rewrite Nat.eqb_refl. rewrite (rsum_ext _ (fun _ => 0%R) (seq 0 n)).
    2:{ intros j Hj. apply in_seq in Hj. destruct (Nat.eqb_spec j n); [lia|reflexivity]. }
    fold (vsum n (fun _ => 0%R)). rewrite vsum_const. ring.
  - rewrite IH by lia. destruct (Nat.eqb_spec n k); [lia|]. ring.
Qed.
Lemma ln_along pdf probit K w k f c : k <= K -> derivable_pt_lim probit (w_dot K w f) (pdf (w_dot K w f)) -> (0 < probit (w_dot K w f) + c)%R ->
  derivable_pt_lim (fun x => ln (probit (w_dot K (set_at w k x) f) + c)%R) (w k) (pdf (w_dot K w f) / (probit (w_dot K w f) + c) * f k)%R.
Proof.
  intros Hk Hd Hp. set (a := w_dot K w f) in *.
  assert (E : forall x, w_dot K (set_at w k x) f = (a + (x - w k) * f k)%R) by (intros x; apply w_dot_at, Hk).
  assert (L : derivable_pt_lim (fun x => a + (x - w k) * f k)%R (w k) (f k)).
  { apply lim_eq with (0 + ((1 - 0) * f k + (w k - w k) * 0))%R; [|ring].
    apply (derivable_pt_lim_plus (fun _ => a) (fun x => (x - w k) * f k)%R); [apply derivable_pt_lim_const|].
    apply (derivable_pt_lim_mult (fun x => x - w k)%R (fun _ => f k)); [|apply derivable_pt_lim_const].
    apply (derivable_pt_lim_minus (fun x => x) (fun _ => w k)); [apply derivable_pt_lim_id|apply derivable_pt_lim_const]. }
  assert (P : derivable_pt_lim (fun x => probit (a + (x - w k) * f k) + c)%R (w k) (pdf a * f k)%R).
  { apply lim_eq with (pdf a * f k + 0)%R; [|ring]. apply (derivable_pt_lim_plus (fun x => probit (a + (x - w k) * f k)%R) (fun _ => c)); [|apply derivable_pt_lim_const].
    apply (derivable_pt_lim_comp (fun x => a + (x - w k) * f k)%R probit); [exact L|]. replace (a + (w k - w k) * f k)%R with a by ring. exact Hd. }
  assert (G : derivable_pt_lim (fun x => ln (probit (a + (x - w k) * f k) + c)%R) (w k) (/ (probit a + c) * (pdf a * f k))%R).
  { apply (derivable_pt_lim_comp (fun x => probit (a + (x - w k) * f k) + c)%R ln); [exact P|].
    replace (a + (w k - w k) * f k)%R with a by ring. apply derivable_pt_lim_ln, Hp. }
  replace (pdf a / (probit a + c) * f k)%R with (/ (probit a + c) * (pdf a * f k))%R by (unfold Rdiv; ring).
  intros eps He. destruct (G eps He) as [del Hdel]. exists del. intros h Hh Hs. rewrite !E. apply Hdel; assumption.
Qed.
(** What the links contribute is the gradient of their log-probability. *)
Theorem C187_links_gradient pdf probit K links means w k : normal_like pdf probit -> k <= K ->
  derivable_pt_lim (fun x => rsum (map (fun '(d, p) => ln (probit (w_dot K (set_at w k x) (fun j => means d j * means p j)))) (visited_links links)))%R
    (w k) (link_errors pdf probit K links means w k).
Proof.
  intros (Hd & Hpos & Hp & _) Hk. unfold link_errors. induction (visited_links links) as [|[d p] l IH]; cbn [map rsum]; [apply derivable_pt_lim_const|].
  apply (derivable_pt_lim_plus (fun x => ln (probit (w_dot K (set_at w k x) (fun j => means d j * means p j)%R)))
    (fun x => rsum (map (fun '(d, p) => ln (probit (w_dot K (set_at w k x) (fun j => means d j * means p j)%R))) l))); [|exact IH].
  set (f := fun j => (means d j * means p j)%R). pose proof (Hp (w_dot K w f)) as Q.
  unfold link_slope. destruct (Req_EM_T _ 0) as [Z|_]; [lra|].
  pose proof (ln_along pdf probit K w k f 0 Hk (Hd _) ltac:(lra)) as G. rewrite Rplus_0_r in G. change (means d k * means p k)%R with (f k).
  intros eps He. destruct (G eps He) as [del Hdel]. exists del. intros h Hh Hs. specialize (Hdel h Hh Hs). rewrite !Rplus_0_r in Hdel. exact Hdel.
Qed.
(** What the pseudo-negatives contribute is minus the gradient for linked documents. *)
Theorem C187_pseudo_negatives_are pdf probit K prior negCount w k : normal_like pdf probit -> k <= K ->
  derivable_pt_lim (fun x => - negCount * ln (probit (w_dot K (set_at w k x) (pseudo_doc K prior)) + least_prob))%R (w k) (pseudo_error pdf probit K prior negCount w k).
Proof.
  intros (Hd & Hpos & Hp & _) Hk. unfold pseudo_error. cbv zeta. set (f := pseudo_doc K prior).
  assert (Hl : (0 < least_prob)%R) by (unfold least_prob; apply Rinv_0_lt_compat, IZR_lt; reflexivity).
  pose proof (ln_along pdf probit K w k f least_prob Hk (Hd _) ltac:(pose proof (Hp (w_dot K w f)); lra)) as G.
  replace (- negCount * (pdf (w_dot K w f) / (probit (w_dot K w f) + least_prob)) * f k)%R
    with (- negCount * (pdf (w_dot K w f) / (probit (w_dot K w f) + least_prob) * f k))%R by ring.
  apply derivable_pt_lim_scal. exact G.
Qed.
(** It is the gradient of the log-probability that there is no link only where both are about as probable. *)
Lemma unlinked_gradient pdf probit K prior negCount w k : normal_like pdf probit -> k <= K ->
  derivable_pt_lim (fun x => negCount * ln (1 - probit (w_dot K (set_at w k x) (pseudo_doc K prior))))%R (w k)
    (- negCount * (pdf (w_dot K w (pseudo_doc K prior)) / (1 - probit (w_dot K w (pseudo_doc K prior)))) * pseudo_doc K prior k)%R.
Proof.
  intros (Hd & Hpos & Hp & Hs) Hk. set (f := pseudo_doc K prior). set (a := w_dot K w f).
  assert (N : derivable_pt_lim (fun x => 1 - probit x)%R a (- pdf a)%R).
  { apply lim_eq with (0 - pdf a)%R; [|ring]. apply (derivable_pt_lim_minus (fun _ => 1%R) probit); [apply derivable_pt_lim_const|apply Hd]. }
  pose proof (ln_along (fun x => - pdf x)%R (fun x => 1 - probit x)%R K w k f 0 Hk N ltac:(fold a; pose proof (Hp a); lra)) as G. fold a in G. cbv beta in G.
  replace (- negCount * (pdf a / (1 - probit a)) * f k)%R with (negCount * (- pdf a / (1 - probit a + 0) * f k))%R by (rewrite Rplus_0_r; unfold Rdiv; ring).
  apply (derivable_pt_lim_scal (fun x => ln (1 - probit (w_dot K (set_at w k x) f))%R)).
  intros eps He. destruct (G eps He) as [del Hdel]. exists del. intros h Hh Hs'. specialize (Hdel h Hh Hs'). rewrite !Rplus_0_r in Hdel. rewrite ?Rplus_0_r. exact Hdel.
Qed.
Theorem C187_pseudo_negatives_differ pdf probit K prior negCount w k l : normal_like pdf probit -> k <= K -> (0 < negCount)%R -> (0 < pseudo_doc K prior k)%R ->
  derivable_pt_lim (fun x => negCount * ln (1 - probit (w_dot K (set_at w k x) (pseudo_doc K prior))))%R (w k) l ->
  (pseudo_error pdf probit K prior negCount w k = l <-> 2 * probit (w_dot K w (pseudo_doc K prior)) + least_prob = 1)%R.
Proof.
  intros HN Hk Hn Hf Hl. rewrite (uniqueness_limite _ _ _ _ Hl (unlinked_gradient pdf probit K prior negCount w k HN Hk)).
  destruct HN as (_ & Hpos & Hp & _). unfold pseudo_error. cbv zeta. set (f := pseudo_doc K prior) in *. set (a := w_dot K w f). specialize (Hpos a). specialize (Hp a).
  assert (Hl' : (0 < least_prob)%R) by (unfold least_prob; apply Rinv_0_lt_compat, IZR_lt; reflexivity).
  split; intros E.
  - apply Rmult_eq_reg_r in E; [|lra]. apply Rmult_eq_reg_l in E; [|lra]. unfold Rdiv in E. apply Rmult_eq_reg_l in E; [|lra].
    apply (f_equal Rinv) in E. rewrite !Rinv_inv in E. lra.
  - replace (1 - probit a)%R with (probit a + least_prob)%R by lra. reflexivity.
Qed.
Lemma normal_like_half pdf probit : normal_like pdf probit -> probit 0%R = (/ 2)%R /\ forall x, (0 < x)%R -> (/ 2 < probit x)%R.
Proof.
  intros (Hd & Hpos & _ & Hs). assert (H0 : probit 0%R = (/ 2)%R) by (pose proof (Hs 0%R) as E; rewrite Ropp_0 in E; lra).
  split; [exact H0|]. intros x Hx. destruct (MVT_cor2 probit pdf 0 x Hx (fun c _ => Hd c)) as (c & E & _).
  pose proof (Rmult_lt_0_compat _ _ (Hpos c) Hx). lra.
Qed.
(** Where a link is predicted for the pseudo-negatives, the push against it is too weak. *)
Theorem C187_push_too_weak pdf probit K prior negCount w k l : normal_like pdf probit -> k <= K -> (0 < negCount)%R -> (0 < pseudo_doc K prior k)%R ->
  (0 < w_dot K w (pseudo_doc K prior))%R ->
  derivable_pt_lim (fun x => negCount * ln (1 - probit (w_dot K (set_at w k x) (pseudo_doc K prior))))%R (w k) l ->
  (l < pseudo_error pdf probit K prior negCount w k < 0)%R.
Proof.
  intros HN Hk Hn Hf Hw Hl. rewrite (uniqueness_limite _ _ _ _ Hl (unlinked_gradient pdf probit K prior negCount w k HN Hk)).
  destruct (normal_like_half pdf probit HN) as [_ Hh]. specialize (Hh _ Hw). destruct HN as (_ & Hpos & Hp & _).
  unfold pseudo_error. cbv zeta. set (f := pseudo_doc K prior) in *. set (a := w_dot K w f) in *. specialize (Hpos a). specialize (Hp a).
  assert (Hl' : (0 < least_prob)%R) by (unfold least_prob; apply Rinv_0_lt_compat, IZR_lt; reflexivity).
  assert (Hi : (0 < / (probit a + least_prob) < / (1 - probit a))%R) by (split; [apply Rinv_0_lt_compat; lra|apply Rinv_lt_contravar; [apply Rmult_lt_0_compat; lra|lra]]).
  assert (Hc : (0 < negCount * pdf a * f k)%R) by (apply Rmult_lt_0_compat; [apply Rmult_lt_0_compat|]; lra).
  replace (- negCount * (pdf a / (1 - probit a)) * f k)%R with (- (negCount * pdf a * f k * / (1 - probit a)))%R by (unfold Rdiv; ring).
  replace (- negCount * (pdf a / (probit a + least_prob)) * f k)%R with (- (negCount * pdf a * f k * / (probit a + least_prob)))%R by (unfold Rdiv; ring).
  pose proof (Rmult_lt_compat_l _ _ _ Hc (proj2 Hi)). pose proof (Rmult_lt_0_compat _ _ Hc (proj1 Hi)). lra.
Qed.
Definition logistic (x : R) : R := (/ (1 + exp (- x)))%R.
Definition logistic_slope (x : R) : R := (exp (- x) / ((1 + exp (- x)) * (1 + exp (- x))))%R.
Lemma logistic_like : normal_like logistic_slope logistic.
Proof.
  assert (P : forall x, (0 < exp x)%R) by apply exp_pos. unfold logistic, logistic_slope. split; [|split; [|split]]; intros x; pose proof (P (- x)%R).
  - assert (E : derivable_pt_lim (fun x => 1 + exp (- x))%R x (- exp (- x))%R).
    { apply lim_eq with (0 + exp (- x) * - (1))%R; [|ring].
      apply (derivable_pt_lim_plus (fun _ => 1%R) (fun x => exp (- x))); [apply derivable_pt_lim_const|].
      apply (derivable_pt_lim_comp (fun x => - x)%R exp); [|apply derivable_pt_lim_exp].
      apply (derivable_pt_lim_opp (fun x => x)). apply derivable_pt_lim_id. }
    pose proof (derivable_pt_lim_div (fun _ => 1%R) (fun x => 1 + exp (- x))%R x 0 (- exp (- x)) (derivable_pt_lim_const 1 x) E ltac:(cbv beta; lra)) as G.
    apply lim_eq with ((0 * (1 + exp (- x)) - - exp (- x) * 1) / (Rsqr (1 + exp (- x))))%R; [|unfold Rsqr, Rdiv; ring].
    intros eps He. destruct (G eps He) as [del Hdel]. exists del. intros h Hh Hs. specialize (Hdel h Hh Hs).
    unfold div_fct, Rdiv in Hdel |- *. rewrite !Rmult_1_l in Hdel. exact Hdel.
  - apply Rmult_lt_0_compat; [assumption|]. apply Rinv_0_lt_compat, Rmult_lt_0_compat; lra.
  - split; [apply Rinv_0_lt_compat; lra|]. apply Rlt_le_trans with (/ 1)%R; [apply Rinv_lt_contravar; lra|rewrite Rinv_1; lra].
  - rewrite Ropp_involutive. assert (exp x * exp (- x) = 1)%R by (rewrite <- exp_plus, Rplus_opp_r; apply exp_0).
    pose proof (P x). field_simplify_eq; lra.
Qed.
(** The prior a model starts with. *)
Definition default_prior (K : nat) : vec := set_at (fun _ => 5 / INR K + 5 / 10)%R K 0%R.
Lemma vsum_default K : (0 < K) -> vsum (S K) (default_prior K) = (5 + INR K / 2)%R.
Proof.
  intros HK. unfold vsum. rewrite seq_S, map_app, rsum_app. cbn [map rsum plus]. fold (vsum K (default_prior K)).
  rewrite (vsum_ext K _ (fun _ => 5 / INR K + 5 / 10)%R).
  2:{ intros k Hk. unfold default_prior, set_at. destruct (Nat.eqb_spec k K); [lia|reflexivity]. }
  rewrite vsum_const. unfold default_prior, set_at. rewrite Nat.eqb_refl. pose proof (lt_0_INR K HK). field. lra.
Qed.
Lemma default_pseudo K k : 0 < K -> k < K -> pseudo_doc K (default_prior K) k = ((5 / INR K + 5 / 10) * (5 / INR K + 5 / 10) / (5 + INR K / 2))%R.
Proof.
  intros HK Hk. unfold pseudo_doc. rewrite vsum_default by exact HK. unfold default_prior, set_at. destruct (Nat.eqb_spec k K); [lia|reflexivity].
Qed.
Theorem C187_gradient_refuted : exists pdf probit K negCount w k l, normal_like pdf probit /\ k < K /\
  derivable_pt_lim (fun x => negCount * ln (1 - probit (w_dot K (set_at w k x) (pseudo_doc K (default_prior K)))))%R (w k) l /\
  pseudo_error pdf probit K (default_prior K) negCount w k <> l.
Proof.
  exists logistic_slope, logistic, 2, 1%R, (fun _ => 1%R), 0.
  pose proof (unlinked_gradient logistic_slope logistic 2 (default_prior 2) 1 (fun _ => 1%R) 0 logistic_like ltac:(lia)) as G.
  eexists. split; [exact logistic_like|]. split; [lia|]. split; [exact G|].
  assert (P0 : pseudo_doc 2 (default_prior 2) 0 = (15 / 10)%R) by (rewrite default_pseudo by lia; cbn [INR]; lra).
  assert (P1 : pseudo_doc 2 (default_prior 2) 1 = (15 / 10)%R) by (rewrite default_pseudo by lia; cbn [INR]; lra).
  apply Rgt_not_eq. eapply (proj1 (C187_push_too_weak logistic_slope logistic 2 (default_prior 2) 1 (fun _ => 1%R) 0 _ logistic_like ltac:(lia) ltac:(lra) ltac:(lra) _ G)).
  Unshelve. unfold w_dot, vsum. cbn [seq map rsum]. rewrite P0, P1.
  unfold pseudo_doc at 1, set_at. cbn [Nat.eqb]. lra.
Qed.

(** ** C188: the stand-in for unlinked documents *)
(** What two documents have in common if each has the topics of the prior in expectation. *)
Definition expected_topic (K : nat) (prior : vec) (k : nat) : R := (prior k / vsum K prior)%R.
Lemma vsum_last K (prior : vec) : prior K = 0%R -> vsum (S K) prior = vsum K prior.
Proof. intros H. unfold vsum. rewrite seq_S, map_app, rsum_app. cbn [map rsum plus]. rewrite H. ring. Qed.
(** The weight of the intercept counts once. *)
Theorem C188_intercept K prior : pseudo_doc K prior K = 1%R.
Proof. unfold pseudo_doc, set_at. rewrite Nat.eqb_refl. reflexivity. Qed.
(** It is what two documents with the topics of the prior have in common, times the sum of the prior. *)
Theorem C188_scaled_by_the_prior K prior k : prior K = 0%R -> (0 < vsum K prior)%R -> k < K ->
  pseudo_doc K prior k = (vsum K prior * (expected_topic K prior k * expected_topic K prior k))%R.
Proof.
  intros H0 HA Hk. unfold pseudo_doc, set_at, expected_topic. destruct (Nat.eqb_spec k K); [lia|]. rewrite vsum_last by exact H0. field. lra.
Qed.
(** Documents have at most everything in common. *)
Lemma in_common K (m p : vec) : proper K m -> proper K p -> (vsum K (fun k => m k * p k) <= 1)%R.
Proof.
  intros [Hm Sm] [Hp Sp]. rewrite <- Sm. apply vsum_le. intros k Hk. rewrite <- (Rmult_1_r (m k)) at 2. apply Rmult_le_compat_l; [apply Hm, Hk|].
  rewrite <- Sp. apply (vsum_in_le K p k); [exact Hp|exact Hk].
Qed.
(** With the same value for all topics the stand-ins have in common as much as the value says, however large. *)
Theorem C188_symmetric_prior K prior a : 0 < K -> (0 < a)%R -> prior K = 0%R -> (forall k, k < K -> prior k = a) ->
  vsum K (pseudo_doc K prior) = a /\
  vsum K (fun k => expected_topic K prior k * expected_topic K prior k)%R = (/ INR K)%R /\
  ((1 < a)%R -> forall m p, proper K m -> proper K p -> (vsum K (fun k => m k * p k) < vsum K (pseudo_doc K prior))%R).
Proof.
  intros HK Ha H0 Hp. pose proof (lt_0_INR K HK) as HI.
  assert (S : vsum K prior = (INR K * a)%R) by (rewrite (vsum_ext K _ (fun _ => a)) by exact Hp; apply vsum_const).
  assert (SP : (0 < vsum K prior)%R) by (rewrite S; apply Rmult_lt_0_compat; assumption).
  assert (E : vsum K (pseudo_doc K prior) = a).
  { rewrite (vsum_ext K _ (fun _ => a / INR K)%R).
    - rewrite vsum_const. field. lra.
    - intros k Hk. rewrite C188_scaled_by_the_prior by assumption. unfold expected_topic. rewrite S, Hp by exact Hk. field. lra. }
  split; [exact E|]. split.
  - rewrite (vsum_ext K _ (fun _ => / INR K * / INR K)%R).
    + rewrite vsum_const. field. lra.
    + intros k Hk. unfold expected_topic. rewrite S, Hp by exact Hk. field. lra.
  - intros H1 m p Hm Hq. rewrite E. pose proof (in_common K m p Hm Hq). lra.
Qed.
Theorem C188_stand_in_refuted : exists K, 1 < K /\
  (forall m p, proper K m -> proper K p -> (vsum K (fun k => m k * p k) < vsum K (pseudo_doc K (default_prior K)))%R) /\
  (forall k, k < K -> (5 * (expected_topic K (default_prior K) k * expected_topic K (default_prior K) k) < pseudo_doc K (default_prior K) k)%R).
Proof.
  exists 2. split; [lia|].
  assert (HP : forall k, k < 2 -> default_prior 2 k = 3%R) by (intros k Hk; unfold default_prior, set_at; destruct (Nat.eqb_spec k 2); [lia|]; cbn [INR]; lra).
  assert (H0 : default_prior 2 2 = 0%R) by reflexivity.
  destruct (C188_symmetric_prior 2 (default_prior 2) 3 ltac:(lia) ltac:(lra) H0 HP) as (_ & _ & H). split; [apply H; lra|].
  assert (S : vsum 2 (default_prior 2) = 6%R) by (rewrite (vsum_ext 2 _ (fun _ => 3%R)) by exact HP; rewrite vsum_const; cbn [INR]; lra).
  intros k Hk. rewrite C188_scaled_by_the_prior by (try exact H0; try exact Hk; lra). unfold expected_topic. rewrite S, HP by exact Hk. lra.
Qed.

(** ** C189: priors given as arguments, and states to query with *)
Theorem C189_which_priors K arg : 1 < K < 255 ->
  match arg with
  | NoPrior => exists p, rtm_new_prior K arg = Ok p /\ length p = S K /\ nth K p 1%R = 0%R /\ forall k, k < K -> nth k p 0%R = (5 / INR K + 1 / 2)%R
  | ScalarPrior _ => rtm_new_prior K arg = Raise TypeError
  | VectorPrior v =>
      (length v <= K -> rtm_new_prior K arg = Raise IndexError) /\
      (K < length v -> exists p, rtm_new_prior K arg = Ok p /\ length p = length v /\ nth K p 1%R = 0%R /\ forall k, k <> K -> nth k p 0%R = nth k v 0%R)
  end.
Proof.
  intros HK.
  assert (G : forall v, K < length v -> exists p, set_item v K 0%R = Ok p /\ length p = length v /\ nth K p 1%R = 0%R /\ forall k, k <> K -> nth k p 0%R = nth k v 0%R).
  { intros v Hv. unfold set_item. destruct (Nat.ltb_spec K (length v)); [|lia]. eexists. split; [reflexivity|].
    assert (L : length (firstn K v) = K) by (rewrite firstn_length; lia).
    split; [rewrite app_length; cbn [length]; rewrite L, skipn_length; lia|]. split.
    - rewrite app_nth2 by lia. rewrite L, Nat.sub_diag. reflexivity.
    - intros k Hk. destruct (lt_dec k K) as [H'|H'].
      + rewrite app_nth1 by lia. rewrite <- (firstn_skipn K v) at 2. rewrite app_nth1 by lia. reflexivity.
      + rewrite app_nth2 by lia. rewrite L. destruct (k - K) as [|j] eqn:E; [lia|]. cbn [nth].
        rewrite <- (firstn_skipn (S K) v) at 2. rewrite app_nth2 by (rewrite firstn_length; lia). rewrite firstn_length. f_equal. lia. }
  unfold rtm_new_prior. destruct (Nat.ltb_spec 1 K); [|lia]. destruct (Nat.ltb_spec K 255); [|lia]. cbn [negb]. destruct arg as [|x|v].
  - destruct (G (repeat (5 / INR K + 5 / 10)%R (K + 1)) ltac:(rewrite repeat_length; lia)) as (p & E & L & N & O).
    exists p. rewrite repeat_length in L. repeat split; [exact E|lia|exact N|]. intros k Hk. rewrite O by lia.
    rewrite (nth_indep _ 0%R (5 / INR K + 5 / 10)%R) by (rewrite repeat_length; lia). rewrite nth_repeat. lra.
  - reflexivity.
  - split; [|apply G]. intros Hv. unfold set_item. destruct (Nat.ltb_spec K (length v)); [lia|reflexivity].
Qed.
(** No model so made has a state to query with. *)
Theorem C189_no_query_state K arg prior draws rest : rtm_new_prior K arg = Ok prior -> rtm_new_state prior draws rest = Raise ValueError.
Proof.
  intros E. assert (In 0%R prior).
  { assert (G : forall v, set_item v K 0%R = Ok prior -> In 0%R prior).
    { intros v. unfold set_item. destruct (_ <? _); [|discriminate]. intros E'. injection E' as <-. apply in_or_app. right. left. reflexivity. }
    unfold rtm_new_prior in E. destruct (negb _); [discriminate|]. destruct (negb _); [discriminate|]. destruct arg; [|discriminate|]; eapply G, E. }
  unfold rtm_new_state, dirichlet. replace (forallb (fun x => rltb 0 x) prior) with false; [reflexivity|].
  symmetry. apply not_true_is_false. intros F. rewrite forallb_forall in F. specialize (F 0%R H). apply rltb_true in F. lra.
Qed.
Theorem C189_prior_arguments_refuted : exists K, 1 < K < 255 /\ (forall x, rtm_new_prior K (ScalarPrior x) = Raise TypeError) /\
  (forall v, length v = K -> rtm_new_prior K (VectorPrior v) = Raise IndexError) /\
  forall arg draws rest, exists e, (do prior <- rtm_new_prior K arg; rtm_new_state prior draws rest) = Raise e.
Proof.
  exists 20. split; [lia|]. split; [intros x; exact (C189_which_priors 20 (ScalarPrior x) ltac:(lia))|]. split.
  - intros v Hv. apply (C189_which_priors 20 (VectorPrior v) ltac:(lia)). lia.
  - intros arg draws rest. destruct (rtm_new_prior 20 arg) as [p|e] eqn:E; [|exists e; reflexivity]. exists ValueError. exact (C189_no_query_state 20 arg p draws rest E).
Qed.

(** ** C190: the estimate of a Polya distribution *)
Section polya.
  Context (D K : nat) (counts : nat -> nat -> Z) (sums : nat -> Z).
  Notation single := (polya_single D K counts sums).
  Notation loop := (polya_loop D K counts sums).
  Definition positive_fin (v : nat -> xr) : Prop := forall k, k < K -> exists x, v k = Fin x /\ (0 < x)%R.
  Lemma fin_choice (v : nat -> xr) : positive_fin v -> (forall k, k < K -> v k = Fin (val (v k)) /\ (0 < val (v k))%R).
  Proof. intros H k Hk. destruct (H k Hk) as (x & -> & Hx). split; [reflexivity|exact Hx]. Qed.
  (** Documents with a token of every topic. *)
  Context (HD : 0 < D) (HK : 0 < K) (Hc : forall d k, d < D -> k < K -> (0 < counts d k)%Z) (Hs : forall d, d < D -> (0 < sums d)%Z).
  Lemma ratio_pos n x : (0 < n)%Z -> (0 < x)%R -> polya_ratio n (Fin x) = Fin (IZR n / (IZR n - 1 + x)) /\ (0 < IZR n / (IZR n - 1 + x))%R.
  Proof.
    intros Hn Hx. assert (1 <= IZR n)%R by (apply (IZR_le 1); lia). unfold polya_ratio, xcount. cbn [xadd]. rewrite minus_IZR. split.
    - cbn [xdiv]. destruct (Req_EM_T _ 0); [lra|reflexivity].
    - apply Rdiv_lt_0_compat; lra.
  Qed.
  Lemma single_positive old : positive_fin old -> positive_fin (single (Fin 0) old).
  Proof.
    intros Ho. pose proof (fin_choice old Ho) as F. intros k Hk. unfold polya_single. cbv zeta.
    rewrite (fsum K old (fun j => val (old j))) by (intros j Hj; apply (F j Hj)).
    assert (HS : (0 < vsum K (fun j => val (old j)))%R) by (apply vsum_pos; [lia|intros j Hj; apply (F j Hj)]).
    destruct (F k Hk) as [E P]. rewrite E. set (x := val (old k)) in *. set (s := vsum K _) in *.
    rewrite (fsum D _ (fun d => IZR (counts d k) / (IZR (counts d k) - 1 + x))%R) by (intros d Hd; apply ratio_pos; [apply Hc; assumption|exact P]).
    rewrite (fsum D _ (fun d => IZR (sums d) / (IZR (sums d) - 1 + s))%R) by (intros d Hd; apply ratio_pos; [apply Hs; assumption|exact HS]).
    assert (N : (0 < vsum D (fun d => IZR (counts d k) / (IZR (counts d k) - 1 + x)))%R) by (apply vsum_pos; [lia|intros d Hd; apply ratio_pos; [apply Hc; assumption|exact P]]).
    assert (M : (0 < vsum D (fun d => IZR (sums d) / (IZR (sums d) - 1 + s)))%R) by (apply vsum_pos; [lia|intros d Hd; apply ratio_pos; [apply Hs; assumption|exact HS]]).
    set (num := vsum D (fun d => IZR (counts d k) / _)%R) in *. set (den := vsum D (fun d => IZR (sums d) / _)%R) in *. cbn [xadd xmul xdiv].
    destruct (Req_EM_T (0 + den) 0); [lra|]. cbn [xadd]. eexists. split; [reflexivity|].
    assert (0 < x * num / (0 + den))%R by (apply Rdiv_lt_0_compat; [apply Rmult_lt_0_compat|]; lra). assert (0 < 1 / IZR (10 ^ 5))%R by (apply Rdiv_lt_0_compat; [lra|apply IZR_lt; reflexivity]). lra.
  Qed.
  Lemma loop_positive n itr change soln : positive_fin soln -> positive_fin (loop (fun _ => Fin 0) n itr change soln).
  Proof.
    revert itr change soln. induction n as [|n IH]; intros itr change soln H; [exact H|]. cbn [polya_loop].
    destruct (xlt _ _); [|exact H]. apply IH, single_positive, H.
  Qed.
  Lemma mean_pos k : k < K -> xsum D (fun d => xcount (counts d k)) ⊘ Fin (INR D) = Fin (vsum D (fun d => IZR (counts d k)) / INR D) /\ (0 < vsum D (fun d => IZR (counts d k)) / INR D)%R.
  Proof.
    intros Hk. pose proof (lt_0_INR D HD). rewrite (fsum D _ (fun d => IZR (counts d k))) by (intros d Hd; reflexivity). cbn [xdiv]. destruct (Req_EM_T _ 0); [lra|]. split; [reflexivity|].
    apply Rdiv_lt_0_compat; [|assumption]. apply vsum_pos; [lia|]. intros d Hd. apply IZR_lt, Hc; assumption.
  Qed.
  Lemma start_positive : positive_fin (polya_start D K counts).
  Proof.
    intros k Hk. unfold polya_start. cbv zeta. rewrite (proj1 (mean_pos k Hk)).
    rewrite (fsum K _ (fun k => vsum D (fun d => IZR (counts d k)) / INR D)%R) by (intros j Hj; apply mean_pos, Hj).
    assert (0 < vsum K (fun k => vsum D (fun d => IZR (counts d k)) / INR D))%R by (apply vsum_pos; [lia|intros j Hj; apply mean_pos, Hj]).
    cbn [xdiv]. destruct (Req_EM_T _ 0); [lra|]. eexists. split; [reflexivity|]. apply Rdiv_lt_0_compat; [apply mean_pos, Hk|assumption].
  Qed.
End polya.
(** If what is uninitialised happens to be zero, and every document has every topic, then the estimate is positive. *)
Theorem C190_positive D K counts sums : 0 < D -> 0 < K -> (forall d k, d < D -> k < K -> (0 < counts d k)%Z) -> (forall d, d < D -> (0 < sums d)%Z) ->
  positive_fin K (infer_polya D K counts sums (fun _ => Fin 0)).
Proof. intros HD HK Hc Hs. unfold infer_polya. generalize 1000. intros n. apply loop_positive; try assumption. apply (start_positive D K counts sums); assumption. Qed.
Lemma loop_nan D K counts sums junk n itr change soln : 0 < K -> 0 < n -> xlt (Fin (1 / 100 / INR K)) change = true ->
  (forall k, k < K -> polya_single D K counts sums (junk itr) soln k = NaN) -> forall k, k < K -> polya_loop D K counts sums junk n itr change soln k = NaN.
Proof.
  intros HK Hn Hx H k Hk. destruct n as [|n]; [lia|]. cbn [polya_loop]. rewrite Hx.
  assert (E : xsum K (fun j => xabs (soln j ⊖ polya_single D K counts sums (junk itr) soln j)) = NaN).
  { unfold xsum. destruct K as [|K']; [lia|]. cbn [seq map fold_right]. rewrite (H 0) by lia. destruct (soln 0); reflexivity. }
  rewrite E. destruct n as [|n]; cbn [polya_loop xlt]; apply H, Hk.
Qed.
Lemma first_change K : xlt (Fin (1 / 100 / INR K)) (Fin (1 / 100 / INR K + 1)) = true.
Proof. cbn [xlt]. apply rltb_true. lra. Qed.
Lemma fold_nan l : In NaN l -> fold_right xadd (Fin 0) l = NaN.
Proof. induction l as [|x l IH]; intros H; [destruct H|]. cbn [fold_right]. destruct H as [->|H]; [reflexivity|]. rewrite IH by exact H. destruct x; reflexivity. Qed.
(** Rubbish that is not a number makes the estimate that. *)
Theorem C190_uninitialised D K counts sums junk : 0 < K -> junk 0 = NaN -> forall k, k < K -> infer_polya D K counts sums junk k = NaN.
Proof.
  intros HK Hj. unfold infer_polya. generalize (Nat.lt_0_succ 999). generalize 1000. intros n Hn. apply loop_nan; try assumption; [apply first_change|].
  intros k _. unfold polya_single. rewrite Hj. cbn [xadd]. destruct (_ ⊗ _); reflexivity.
Qed.
(** Documents without tokens do, whatever the rubbish. *)
Theorem C190_empty_document D K counts sums junk e : 0 < D -> 0 < K -> e < D -> sums e = 0%Z ->
  (forall d k, d < D -> k < K -> (0 <= counts d k)%Z) -> (exists d k, d < D /\ k < K /\ (0 < counts d k)%Z) ->
  forall k, k < K -> infer_polya D K counts sums junk k = NaN.
Proof.
  intros HD HK He Hse Hc (d0 & k0 & Hd0 & Hk0 & Hp). unfold infer_polya. generalize (Nat.lt_0_succ 999). generalize 1000. intros n Hn. apply loop_nan; try assumption; [apply first_change|].
  pose proof (lt_0_INR D HD) as HI. set (mean := fun k => (vsum D (fun d => IZR (counts d k)) / INR D)%R).
  assert (M : forall k, xsum D (fun d => xcount (counts d k)) ⊘ Fin (INR D) = Fin (mean k)).
  { intros k. rewrite (fsum D _ (fun d => IZR (counts d k))) by (intros d Hd; reflexivity). cbn [xdiv]. destruct (Req_EM_T _ 0); [lra|reflexivity]. }
  assert (Mn : forall k, k < K -> (0 <= mean k)%R).
  { intros k Hk. unfold mean. apply Rmult_le_pos; [|left; apply Rinv_0_lt_compat, HI]. apply vsum_nonneg. intros d Hd. apply IZR_le, Hc; assumption. }
  assert (S : (0 < vsum K mean)%R).
  { apply Rlt_le_trans with (mean k0); [|apply (vsum_in_le K mean k0); [exact Mn|exact Hk0]]. unfold mean. apply Rdiv_lt_0_compat; [|exact HI].
    apply Rlt_le_trans with (IZR (counts d0 k0)); [apply IZR_lt, Hp|]. apply (vsum_in_le D (fun d => IZR (counts d k0)) d0); [intros d Hd; apply IZR_le, Hc; assumption|exact Hd0]. }
  assert (St : forall k, k < K -> polya_start D K counts k = Fin (mean k / vsum K mean)).
  { intros k Hk. unfold polya_start. cbv zeta. rewrite M, (fsum K _ mean) by (intros j _; apply M). cbn [xdiv]. destruct (Req_EM_T _ 0); [lra|reflexivity]. }
  intros k Hk. unfold polya_single. cbv zeta. rewrite (fsum K (polya_start D K counts) (fun j => mean j / vsum K mean)%R) by exact St.
  replace (vsum K (fun j => mean j / vsum K mean)%R) with 1%R.
  2:{ unfold Rdiv. rewrite vsum_scale_r. field. lra. }
  assert (N : xsum D (fun d => polya_ratio (sums d) (Fin 1)) = NaN).
  { unfold xsum. apply fold_nan. apply in_map_iff. exists e. split; [|apply in_seq; lia].
    rewrite Hse. unfold polya_ratio, xcount. cbn [xadd xdiv Z.sub Z.add Z.opp]. destruct (Req_EM_T _ 0) as [_|Z]; [|exfalso; apply Z; lra].
    unfold xsign. destruct (Req_EM_T 0 0); [reflexivity|lra]. }
  rewrite N. destruct (junk 0); cbn [xadd]; destruct (_ ⊗ _); reflexivity.
Qed.
Theorem C190_estimate_refuted : exists D K counts sums junk junk', 0 < K /\ (forall d, sums d = fold_right Z.add 0%Z (map (counts d) (seq 0 K))) /\
  positive_fin K (infer_polya D K counts sums junk) /\ forall k, k < K -> infer_polya D K counts sums junk' k = NaN.
Proof.
  exists 3, 2, (fun d k => Z.of_nat (1 + d + k)), (fun d => fold_right Z.add 0%Z (map (fun k => Z.of_nat (1 + d + k)) (seq 0 2))), (fun _ => Fin 0), (fun _ => NaN).
  split; [lia|]. split; [reflexivity|]. split.
  - apply C190_positive; try lia. intros d Hd. cbn [seq map fold_right]. lia.
  - apply C190_uninitialised; [lia|reflexivity].
Qed.

(** ** Examples *)
Example C185_case : (forall d, d < 3 -> (0 < (fun d => INR (S d)) d)%R) /\
  (rtm_prior psi_witness 2 3 (fun d => INR (S d)) (fun _ k => match k with 0 => / 4 | _ => 3 / 4 end) (fun _ => 1) 1%nat < 1)%R /\
  (vb_prior psi_witness 2 3 (fun d => INR (S d)) (fun _ k => match k with 0 => / 4 | _ => 3 / 4 end) (fun _ => 1) 0%nat < 1)%R.
Proof.
  assert (HL : forall d, d < 3 -> (0 < (fun d => INR (S d)) d)%R) by (intros d _; apply lt_0_INR; lia).
  assert (HM : forall d k : nat, d < 3 -> k < 2 -> (0 < (fun _ k => match k with 0%nat => / 4 | _ => 3 / 4 end) d k <= 1)%R) by (intros d [|k] _ _; lra).
  assert (HP : forall k, k < 2 -> (0 < (fun _ => 1) k)%R) by (intros; lra).
  split; [exact HL|]. split.
  - apply (C185_always_lower psi_witness 2 3 (fun d => INR (S d)) _ _ psi_witness_increasing ltac:(lia) ltac:(lia) HL HM HP). lia.
  - apply (C185_vb_always_lower psi_witness 2 3 (fun d => INR (S d)) _ _ psi_witness_increasing ltac:(lia) ltac:(lia) HL HM HP 0 ltac:(lia)). lra.
Qed.
(** Six iterations over two linked documents. *)
Example C185_training_case : exists s',
  rtm_train psi_witness (fun x => x) (fun x => x) 1 2 2 demo_docs demo_lens [[1]; [0]] 1
    (learn_weights (fun x => x) (fun x => x) 2 [[1]; [0]] 1 1) (fun _ _ => false) (learn_prior psi_witness 2 demo_docs demo_lens) 1 6
    (mkRt (fun _ _ => 1%R) (fun _ _ => 1%R) (fun _ => 1%R) (fun _ => 1%R)) true = Ok s' /\ (0 < r_prior s' 0%nat < 1)%R /\ (0 < r_prior s' 1%nat < 1)%R.
Proof.
  assert (HL : links_ok demo_docs [[1]; [0]]) by (split; [reflexivity|]; repeat constructor).
  destruct (C124_training_conserves_tokens psi_witness (fun x => x) (fun x => x) 1 2 2 demo_docs demo_lens [[1]; [0]] 1
    (learn_weights (fun x => x) (fun x => x) 2 [[1]; [0]] 1 1) (fun _ _ => false) (learn_prior psi_witness 2 demo_docs demo_lens) 1 6
    (mkRt (fun _ _ => 1%R) (fun _ _ => 1%R) (fun _ => 1%R) (fun _ => 1%R)) ltac:(lia) demo_corpus HL ltac:(lia) ltac:(lia)) as (s' & E & _).
  { intros w m p. unfold learn_weights. eexists. reflexivity. }
  exists s'. split; [exact E|].
  destruct (C185_training_never_raises psi_witness (fun x => x) (fun x => x) 1 2 2 demo_docs demo_lens [[1]; [0]] 1 1 1 (fun _ _ => false) 1 6
    (mkRt (fun _ _ => 1%R) (fun _ _ => 1%R) (fun _ => 1%R) (fun _ => 1%R)) s' psi_witness_increasing ltac:(lia) ltac:(cbn; lia) demo_corpus HL ltac:(intros; cbn; lra) E) as [A B].
  specialize (B ltac:(reflexivity) ltac:(lia)). cbn [r_prior] in A, B.
  split; split; try (apply B; lia); apply A; lia.
Qed.
Example C186_case : visited_links [[]; []] = [] /\
  (0 < infer_weights logistic_slope logistic 2 [[]; []] (fun _ _ => / 2) (fun _ => 1) 0 (/ 1000) (fun _ => 1) 0%nat < 1)%R /\
  (1 < infer_weights logistic_slope logistic 2 [[]; []] (fun _ _ => / 2) (fun _ => 1) 0 2 (fun _ => 1) 0%nat)%R.
Proof.
  split; [reflexivity|].
  destruct (C186_regularizer_alone logistic_slope logistic 2 [[]; []] (fun _ _ => / 2)%R (fun _ => 1%R) (/ 1000) (fun _ => 1%R) 0 eq_refl ltac:(lra)) as [_ [A _]].
  destruct (C186_regularizer_alone logistic_slope logistic 2 [[]; []] (fun _ _ => / 2)%R (fun _ => 1%R) 2 (fun _ => 1%R) 0 eq_refl ltac:(lra)) as [_ [_ B]].
  split; [exact (A ltac:(lra))|exact (B ltac:(lra))].
Qed.
(** With the normal density replaced by that of the logistic distribution. *)
Example C187_case : normal_like logistic_slope logistic /\ (0 < w_dot 2 (fun _ => 1) (pseudo_doc 2 (default_prior 2)))%R /\
  (0 < pseudo_doc 2 (default_prior 2) 0%nat)%R /\ visited_links [[1]; [0]] <> [].
Proof.
  assert (P0 : pseudo_doc 2 (default_prior 2) 0 = (15 / 10)%R) by (rewrite default_pseudo by lia; cbn [INR]; lra).
  assert (P1 : pseudo_doc 2 (default_prior 2) 1 = (15 / 10)%R) by (rewrite default_pseudo by lia; cbn [INR]; lra).
  split; [exact logistic_like|]. split; [|split; [lra|discriminate]].
  unfold w_dot, vsum. cbn [seq map rsum]. rewrite P0, P1. unfold pseudo_doc, set_at. cbn [Nat.eqb]. lra.
Qed.
Example C188_case : default_prior 2 2 = 0%R /\ vsum 2 (pseudo_doc 2 (default_prior 2)) = 3%R /\ proper 2 (fun _ => / 2)%R.
Proof.
  assert (HP : forall k, k < 2 -> default_prior 2 k = 3%R) by (intros k Hk; unfold default_prior, set_at; destruct (Nat.eqb_spec k 2); [lia|]; cbn [INR]; lra).
  split; [reflexivity|]. split; [apply (C188_symmetric_prior 2 (default_prior 2) 3 ltac:(lia) ltac:(lra) eq_refl HP)|].
  split; [intros; lra|]. unfold vsum. cbn [seq map rsum]. lra.
Qed.
Example C189_case : rtm_new_prior 2 (VectorPrior [1; 2]%R) = Raise IndexError /\ rtm_new_prior 2 (ScalarPrior 1) = Raise TypeError /\
  rtm_new_prior 2 (VectorPrior [1; 2; 3]%R) = Ok [1; 2; 0]%R /\ rtm_new_state [1; 2; 0]%R (fun _ _ => 0%R) (fun m => m) = Raise ValueError.
Proof. do 3 (split; [reflexivity|]). exact (C189_no_query_state 2 (VectorPrior [1; 2; 3]%R) _ _ _ eq_refl). Qed.
(** Two documents, the second one empty. *)
Example C190_case : let counts := fun d k => match d with 0 => Z.of_nat (1 + k) | _ => 0%Z end in
  let sums := fun d => fold_right Z.add 0%Z (map (counts d) (seq 0 2)) in
  sums 1 = 0%Z /\ sums 0 = 3%Z /\ forall junk k, k < 2 -> infer_polya 2 2 counts sums junk k = NaN.
Proof.
  cbv zeta. split; [reflexivity|]. split; [reflexivity|]. intros junk.
  apply (C190_empty_document 2 2 _ _ junk 1); try lia; [reflexivity|intros [|d] k _ _; lia|]. exists 0, 0. lia.
Qed.

Print Assumptions C185_always_lower.
Print Assumptions C185_vb_always_lower.
Print Assumptions C185_less_likely.
Print Assumptions C185_likelihood_refuted.
Print Assumptions C185_training_never_raises.
Print Assumptions C186_fixed_points.
Print Assumptions C186_regularizer_alone.
Print Assumptions C186_strength_refuted.
Print Assumptions C187_links_gradient.
Print Assumptions C187_pseudo_negatives_are.
Print Assumptions C187_pseudo_negatives_differ.
Print Assumptions C187_push_too_weak.
Print Assumptions C187_gradient_refuted.
Print Assumptions C188_intercept.
Print Assumptions C188_scaled_by_the_prior.
Print Assumptions C188_symmetric_prior.
Print Assumptions C188_stand_in_refuted.
Print Assumptions C189_which_priors.
Print Assumptions C189_no_query_state.
Print Assumptions C189_prior_arguments_refuted.
Print Assumptions C190_positive.
Print Assumptions C190_uninitialised.
Print Assumptions C190_empty_document.
Print Assumptions C190_estimate_refuted.
