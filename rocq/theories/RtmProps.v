(** * C123, C124: inference in the relational topic model. *)
From Coq Require Import List Reals ZArith Arith Bool Lra Lia.
From Verif Require Import Base RealModel RealProofs MixModel MixProofs MixProps VbModel VbProofs RtmModel.
Import ListNotations.
Open Scope nat_scope.

Section Rtm.
  Context (psi pdf probit : R -> R) (minNonZero : R) (K T : nat).
  Context (docs : list words) (docLens : vec) (links : list (list nat)) (vp : R).
  Context (infer_weights : vec -> mat -> vec -> res vec) (conv : nat -> rstate -> bool) (update_prior : vec -> mat -> vec).
  Let D := length docs.
  Notation train := (rtm_train psi pdf probit minNonZero K T docs docLens links vp infer_weights conv update_prior).
  Notation query := (rtm_query psi pdf probit minNonZero K T docs docLens links vp infer_weights conv update_prior).

  (** Links between documents that exist. *)
  Definition links_ok : Prop := length links = D /\ Forall (Forall (fun l => l < D)) links.

  Lemma rtm_infer_ok doc len mean prior link diW diSum : 0 < K ->
    exists z, rtm_infer psi K doc len mean prior link diW diSum = Ok z /\ length z = length doc /\ Forall (dist K) z.
  Proof.
    intros HK. unfold rtm_infer. induction doc as [|e doc IH]; [exists []; repeat split; constructor|].
    destruct IH as (z & E & L & F). cbn [mapM].
    destruct (softmax_dist (rtm_scores psi K len mean prior link diW diSum (fst e))) as (out & E1 & D1).
    { unfold rtm_scores. destruct K; [lia|discriminate]. }
    rewrite E1. cbn [bind]. rewrite E. exists (out :: z). split; [reflexivity|]. split; [cbn; lia|].
    constructor; [|exact F]. unfold rtm_scores in D1. rewrite map_length, seq_length in D1. exact D1.
  Qed.

  Lemma rtm_visits_spec word weights prior : 0 < K -> corpus T docs docLens -> links_ok ->
    forall ds means grad, (forall d, In d ds -> d < D) ->
    exists means' grad',
      rtm_visits psi pdf probit minNonZero K T docs docLens links ds word weights prior (means, grad) = Ok (means', grad') /\
      (forall t, vsum K (fun k => grad' k t) = (vsum K (fun k => grad k t) + rsum (map (fun d => count (nth d docs []) t) ds))%R) /\
      (forall k t, k < K -> (grad k t <= grad' k t)%R) /\
      (forall d, (In d ds -> proper K (means' d)) /\ (~ In d ds -> forall k, k < K -> means' d k = means d k)) /\
      (forall d k, K <= k -> means' d k = means d k).
  Proof.
    intros HK [HF HL] [LK LF] ds. induction ds as [|d ds IH]; intros means grad Hds.
    - exists means, grad. split; [reflexivity|]. split; [intros; cbn; ring|]. split; [intros; lra|].
      split; [|reflexivity]. intros d. split; [intros []|reflexivity].
    - assert (Hd : d < length docs) by (apply Hds; left; reflexivity).
      destruct (nth_error docs d) as [doc|] eqn:ED; [|apply nth_error_None in ED; lia].
      pose proof (nth_error_nth docs d [] ED) as ED'.
      destruct (HL d Hd) as [HL1 HL2]. rewrite ED' in HL1.
      rewrite Forall_forall in HF. destruct (HF doc (nth_error_In _ _ ED)) as [ND FP].
      assert (P : Forall (fun e => (0 <= snd e)%R) doc) by (eapply Forall_impl; [|exact FP]; intros e He; apply He).
      destruct (nth_error links d) as [linked|] eqn:EL; [|apply nth_error_None in EL; unfold D in LK; lia].
      cbn [rtm_visits]. unfold rtm_visit. unfold get_. rewrite ED, EL. cbn [bind].
      assert (forallb (fun l => l <? length docs) linked = true) as ->.
      { apply forallb_forall. intros l Hl. rewrite Forall_forall in LF.
        pose proof (LF linked (nth_error_In _ _ EL)) as LF'. rewrite Forall_forall in LF'. specialize (LF' l Hl). unfold D in LF'. apply Nat.ltb_lt. exact LF'. }
      destruct (rtm_infer_ok doc (docLens d) (means d) prior (link_score pdf probit minNonZero K (docLens d) linked weights means d)
                 (fun k t => psi (word k t)) (fun k => psi (vsum T (word k))) HK) as (z & EZ & Lz & Fz).
      rewrite EZ. cbn [bind].
      destruct (IH (set_topics K means d (new_mean doc z (docLens d))) (add_words doc z grad)) as (m' & g' & E & G1 & G2 & M1 & M2).
      { intros; apply Hds; right; assumption. }
      exists m', g'. split; [exact E|].
      assert (Hstep := fun t => add_words_spec psi K doc z grad t Lz Fz ND P).
      split; [|split; [|split]].
      + intros t. rewrite G1. cbn [map rsum]. destruct (Hstep t) as [-> _]. rewrite ED'. ring.
      + intros k t Hk. specialize (G2 k t Hk). destruct (Hstep t) as [_ H]. specialize (H k Hk). lra.
      + intros i. destruct (M1 i) as [Ma Mb]. split.
        * intros Hi. destruct (in_dec Nat.eq_dec i ds) as [I|I]; [exact (Ma I)|].
          destruct Hi as [->|Hi]; [|contradiction].
          pose proof (new_mean_proper psi K doc z (docLens i) Lz Fz P HL1 HL2) as [Q1 Q2].
          assert (Em : forall k, k < K -> m' i k = new_mean doc z (docLens i) k).
          { intros k Hk. rewrite (Mb I k Hk). unfold set_topics. rewrite Nat.eqb_refl. assert (k <? K = true) as -> by lia. reflexivity. }
          split; [intros k Hk; rewrite (Em k Hk); apply Q1; exact Hk|rewrite <- Q2; apply vsum_ext; exact Em].
        * intros Hi k Hk.
          rewrite (Mb ltac:(intros I; apply Hi; right; exact I) k Hk). unfold set_topics.
          destruct (Nat.eqb_spec i d) as [->|]; [exfalso; apply Hi; left; reflexivity|reflexivity].
      + intros i k Hk. rewrite (M2 i k Hk). unfold set_topics. assert (k <? K = false) as -> by lia.
        rewrite andb_false_r. reflexivity.
  Qed.

  Lemma word_total_seq t : rsum (map (fun d => count (nth d docs []) t) (seq 0 D)) = word_total docs t.
  Proof. unfold word_total, D. rewrite <- (map_map (fun d => nth d docs []) (fun doc => count doc t)), <- list_nth_seq. reflexivity. Qed.

  (** What holds of the state after every iteration. *)
  Definition learnt (s : rstate) : Prop :=
    (forall d, d < D -> proper K (r_means s d)) /\
    (forall k t, k < K -> (vp <= r_word s k t)%R) /\
    (forall t, vsum K (fun k => r_word s k t) = (INR K * vp + word_total docs t)%R).

  Lemma rtm_iteration_spec log_freq itr s : 0 < K -> corpus T docs docLens -> links_ok -> 0 < log_freq ->
    (forall w m p, exists w', infer_weights w m p = Ok w') ->
    exists s' b, rtm_iteration psi pdf probit minNonZero K T docs docLens links vp infer_weights conv update_prior log_freq itr s = Ok (s', b) /\
      learnt s' /\ (forall d k, K <= k -> r_means s' d k = r_means s d k) /\
      (r_prior s' = r_prior s \/ exists m, r_prior s' = update_prior (r_prior s) m).
  Proof.
    intros HK HC HLk Hf HW. unfold rtm_iteration.
    destruct (rtm_visits_spec (r_word s) (r_weights s) (r_prior s) HK HC HLk (seq 0 (length docs)) (r_means s) (fun _ _ => vp))
      as (m & g & E & G1 & G2 & M1 & M2).
    { intros d Hd. apply in_seq in Hd. unfold D. lia. }
    cbv zeta. rewrite E. cbn [bind]. destruct (HW (r_weights s) m (r_prior s)) as (w & Ew). rewrite Ew. cbn [bind].
    destruct (Nat.eqb_spec log_freq 0); [lia|].
    assert (HL : forall pr, learnt (mkRt m g w pr)).
    { intros pr. split; [|split]; cbn [r_means r_word].
      - intros d Hd. apply M1. apply in_seq. unfold D in Hd. lia.
      - intros k t Hk. apply G2. exact Hk.
      - intros t. rewrite G1, vsum_const. fold D. rewrite word_total_seq. reflexivity. }
    destruct ((itr mod log_freq =? 0) && conv itr (mkRt m g w (r_prior s))); do 2 eexists; (split; [reflexivity|]);
      (split; [apply HL|]); cbn [r_means r_prior]; (split; [exact M2|]).
    - left; reflexivity.
    - destruct ((0 <? itr) && (itr mod 5 =? 0)); [right; eexists; reflexivity|left; reflexivity].
  Qed.

  Lemma rtm_iterations_spec log_freq (Q : vec -> Prop) : 0 < K -> corpus T docs docLens -> links_ok -> 0 < log_freq ->
    (forall w m p, exists w', infer_weights w m p = Ok w') -> (forall p m, Q p -> Q (update_prior p m)) ->
    forall n itr s, Q (r_prior s) ->
    exists s', rtm_iterations psi pdf probit minNonZero K T docs docLens links vp infer_weights conv update_prior log_freq n itr s = Ok s' /\
      (0 < n -> learnt s') /\ (forall d k, K <= k -> r_means s' d k = r_means s d k) /\ Q (r_prior s').
  Proof.
    intros HK HC HLk Hf HW HQ. induction n as [|n IH]; intros itr s Hs.
    - exists s. split; [reflexivity|]. split; [lia|]. split; [reflexivity|exact Hs].
    - cbn [rtm_iterations].
      destruct (rtm_iteration_spec log_freq itr s HK HC HLk Hf HW) as (s1 & b & E & L & M & P). rewrite E. cbn [bind fst snd].
      assert (Hs1 : Q (r_prior s1)) by (destruct P as [->|(m & ->)]; [exact Hs|apply HQ, Hs]).
      destruct b.
      + exists s1. split; [reflexivity|]. split; [intros _; exact L|]. split; [exact M|exact Hs1].
      + destruct (IH (S itr) s1 Hs1) as (s' & E' & L' & M' & P'). exists s'. split; [exact E'|].
        split; [|split; [|exact P']].
        * intros _. destruct n as [|n]; [|apply L'; lia]. cbn [rtm_iterations] in E'. injection E' as <-. exact L.
        * intros d k Hk. rewrite (M' d k Hk). apply M. exact Hk.
  Qed.

  Lemma lens_ok : corpus T docs docLens -> existsb (fun d => rltb (docLens d) 1) (seq 0 (length docs)) = false.
  Proof.
    intros [_ HL]. destruct (existsb _ _) eqn:E; [|reflexivity]. apply existsb_exists in E as (d & Hd & E).
    apply in_seq in Hd. apply rltb_true in E. destruct (HL d ltac:(lia)). lra.
  Qed.

  (** ** C124: training conserves tokens. *)
  Theorem C124_training_conserves_tokens : forall log_freq iterations s, 0 < K -> corpus T docs docLens -> links_ok ->
    0 < log_freq -> 0 < iterations -> (forall w m p, exists w', infer_weights w m p = Ok w') ->
    exists s', train log_freq iterations s true = Ok s' /\
      (forall d, d < D -> (forall k, k < K -> (r_prior s' k <= r_means s' d k)%R) /\
         vsum K (fun k => r_means s' d k - r_prior s' k)%R = docLens d) /\
      (forall k t, k < K -> (vp <= r_word s' k t)%R) /\
      (forall t, vsum K (fun k => r_word s' k t) = (INR K * vp + word_total docs t)%R).
  Proof.
    intros log_freq iterations s HK HC HLk Hf Hi HW. unfold rtm_train. rewrite (lens_ok HC).
    destruct (rtm_iterations_spec log_freq (fun _ => True) HK HC HLk Hf HW ltac:(auto) iterations 0
      (mkRt (params_to_means docLens (r_means s) (r_prior s)) (r_word s) (r_weights s) (r_prior s)) I) as (s1 & E & L & _).
    rewrite E. cbn [bind]. eexists. split; [reflexivity|]. cbn [r_means r_prior r_word].
    destruct (L Hi) as (L1 & L2 & L3). split; [|split; [exact L2|exact L3]].
    intros d Hd. destruct (L1 d Hd) as [P1 P2]. destruct HC as [_ HL]. destruct (HL d Hd) as [_ Hd1].
    unfold means_to_params. split.
    - intros k Hk. specialize (P1 k Hk). assert (0 <= r_means s1 d k * docLens d)%R by (apply Rmult_le_pos; lra). lra.
    - rewrite (vsum_ext _ _ (fun k => r_means s1 d k * docLens d)%R) by (intros; ring). rewrite vsum_scale_r, P2. ring.
  Qed.

  (** The extra column that carries the intercept of the link predictor stays at the
      length of the document. *)
  Theorem C124_intercept_column : forall log_freq iterations s s', 0 < K -> corpus T docs docLens -> links_ok ->
    0 < log_freq -> (forall w m p, exists w', infer_weights w m p = Ok w') ->
    (forall p m, p K = 0%R -> update_prior p m K = 0%R) ->
    r_prior s K = 0%R -> (forall d, d < D -> r_means s d K = docLens d) ->
    train log_freq iterations s true = Ok s' ->
    forall d, d < D -> r_means s' d K = docLens d.
  Proof.
    intros log_freq iterations s s' HK HC HLk Hf HW HP Hp Hm. unfold rtm_train. rewrite (lens_ok HC).
    destruct (rtm_iterations_spec log_freq (fun p => p K = 0%R) HK HC HLk Hf HW HP iterations 0
      (mkRt (params_to_means docLens (r_means s) (r_prior s)) (r_word s) (r_weights s) (r_prior s)) Hp) as (s1 & E & _ & M & P).
    rewrite E. cbn [bind]. injection 1 as <-. intros d Hd. cbn [r_means]. unfold means_to_params.
    rewrite (M d K (le_n K)). cbn [r_means]. unfold params_to_means. rewrite P, Hp, (Hm d Hd).
    destruct HC as [_ HL]. destruct (HL d Hd) as [_ Hd1]. field. lra.
  Qed.

  (** ** C123: a query. *)
  Theorem C123_query_raises : forall log_freq iterations s, corpus T docs docLens -> 0 < D -> 0 < iterations ->
    query log_freq iterations s = Raise TypeError.
  Proof.
    intros log_freq iterations s HC HD Hi. unfold rtm_query, rtm_train. rewrite (lens_ok HC).
    assert ((iterations =? 0) || (length docs =? 0) = false) as -> by (unfold D in HD; lia). reflexivity.
  Qed.
  (** Only a query without iterations gets through, and it returns the topics it was
      given. *)
  Theorem C123_query_without_iterations : forall log_freq s topics, corpus T docs docLens ->
    query log_freq 0 s = Ok topics -> forall d k, d < D -> topics d k = r_means s d k.
  Proof.
    intros log_freq s topics HC. unfold rtm_query, rtm_train. rewrite (lens_ok HC). cbn [Nat.eqb orb bind].
    injection 1 as <-. intros d k Hd. cbn [r_means r_prior]. unfold means_to_params, params_to_means.
    destruct HC as [_ HL]. destruct (HL d Hd) as [_ Hd1]. field. lra.
  Qed.
End Rtm.

(** The reported topic proportions are distributions. *)
Theorem C124_reported_topics K (topics : mat) prior docLens d : 0 < K -> (0 < docLens)%R ->
  (forall k, k < K -> (0 <= prior k <= topics d k)%R) -> vsum K (fun k => topics d k - prior k)%R = docLens ->
  proper K (rtm_topic_dists K topics d).
Proof.
  intros HK Hl Hp Hs. assert (Hsum : (0 < vsum K (topics d))%R).
  { apply Rlt_le_trans with docLens; [exact Hl|]. rewrite <- Hs. apply vsum_le. intros k Hk. specialize (Hp k Hk). lra. }
  unfold rtm_topic_dists. split.
  - intros k Hk. specialize (Hp k Hk). apply Rmult_le_pos; [lra|]. left. apply Rinv_0_lt_compat. exact Hsum.
  - unfold Rdiv. rewrite vsum_scale_r. field. lra.
Qed.

(** A new query state starts with the column of lengths. *)
Theorem C124_new_state K docLens prior draw d : rtm_new_topics K docLens prior draw d K = docLens d.
Proof. unfold rtm_new_topics. rewrite Nat.eqb_refl. reflexivity. Qed.

(** Two linked documents of one and two words. *)
Definition demo_docs : list words := [[(0, 1%R)]; [(0, 1%R); (1, 1%R)]].
Definition demo_lens : vec := fun d => match d with 0 => 1%R | _ => 2%R end.
Lemma demo_corpus : corpus 2 demo_docs demo_lens.
Proof.
  split.
  - repeat constructor; cbn; try lia; try lra; intuition lia.
  - intros [|[|d]] Hd; [| |cbn in Hd; lia]; cbn; split; lra.
Qed.
Example C124_case : corpus 2 demo_docs demo_lens /\ links_ok demo_docs [[1]; [0]] /\
  exists s', rtm_train (fun x => x) (fun x => x) (fun x => x) 1 2 2 demo_docs demo_lens [[1]; [0]] 1
    (fun w _ _ => Ok w) (fun _ _ => false) (fun p _ => p) 1 3 (mkRt (fun _ _ => 1%R) (fun _ _ => 1%R) (fun _ => 1%R) (fun _ => 1%R)) true = Ok s' /\
    vsum 2 (fun k => r_word s' k 0%nat) = 4%R.
Proof.
  split; [exact demo_corpus|].
  assert (HL : links_ok demo_docs [[1]; [0]]) by (split; [reflexivity|]; repeat constructor).
  split; [exact HL|].
  destruct (C124_training_conserves_tokens (fun x => x) (fun x => x) (fun x => x) 1 2 2 demo_docs demo_lens [[1]; [0]] 1
    (fun w _ _ => Ok w) (fun _ _ => false) (fun p _ => p) 1 3 (mkRt (fun _ _ => 1%R) (fun _ _ => 1%R) (fun _ => 1%R) (fun _ => 1%R))
    ltac:(lia) demo_corpus HL ltac:(lia) ltac:(lia) ltac:(eauto)) as (s' & E & _ & _ & H).
  exists s'. split; [exact E|]. rewrite H. unfold word_total, count. cbn. ring.
Qed.

Theorem C123_query_returns_topics_refuted :
  exists docs docLens links iterations (s : rstate), corpus 2 docs docLens /\ links_ok docs links /\ 0 < iterations /\
    forall psi pdf probit c vp weights conv update log_freq,
      rtm_query psi pdf probit c 2 2 docs docLens links vp weights conv update log_freq iterations s = Raise TypeError.
Proof.
  exists demo_docs, demo_lens, [[1]; [0]], 1, (mkRt (fun _ _ => 1%R) (fun _ _ => 1%R) (fun _ => 1%R) (fun _ => 1%R)).
  split; [exact demo_corpus|]. split; [split; [reflexivity|]; repeat constructor|]. split; [lia|].
  intros. apply C123_query_raises; [exact demo_corpus|cbn; lia|lia].
Qed.

Print Assumptions C124_training_conserves_tokens.
Print Assumptions C124_intercept_column.
Print Assumptions C123_query_raises.
Print Assumptions C123_query_without_iterations.
Print Assumptions C124_reported_topics.
Print Assumptions C124_new_state.
Print Assumptions C123_query_returns_topics_refuted.
