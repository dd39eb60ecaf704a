(** * C227-C229: the states that training starts from. *)
From Coq Require Import List Reals Arith Bool Lra Lia.
From Verif Require Import Base RealModel VbModel VbProofs LinkModel LinkProps CtmModel CtmProofs MtmModel StartModel RealProofs.
From Verif Require VbProps HyperProps StationProofs BoundProofs.
Import ListNotations.
Open Scope nat_scope.

(** A distribution over words that gives every word a probability. *)
Definition full (T : nat) (p : vec) : Prop := (forall t, t < T -> (0 < p t)%R) /\ vsum T p = 1%R.
Definition counts (docs : list words) : Prop := Forall (Forall (fun e : nat * R => (0 <= snd e)%R)) docs.
Definition of_words (T : nat) (docs : list words) : Prop := Forall (Forall (fun e : nat * R => fst e < T)) docs.
Definition occurs (t : nat) (docs : list words) : Prop := exists doc x, In doc docs /\ In (t, x) doc /\ (0 < x)%R.

Lemma scaled_full T row : 0 < T -> (forall t, t < T -> (0 < row t)%R) -> full T (fun t => row t / vsum T row)%R.
Proof.
  intros HT P. pose proof (vsum_pos T row HT P) as PS. split; [intros t Ht; apply Rdiv_lt_0_compat; [apply P, Ht|exact PS]|].
  unfold Rdiv. rewrite vsum_scale_r. field. lra.
Qed.
Lemma add_doc_grows row doc t : Forall (fun e : nat * R => (0 <= snd e)%R) doc -> (row t <= add_doc row doc t)%R.
Proof.
  intros HP. unfold add_doc.
  assert (X : forall acc, (forall x, acc = Some x -> (0 <= x)%R) -> forall y,
            fold_left (fun acc '(u, x) => if u =? t then Some x else acc) doc acc = Some y -> (0 <= y)%R).
  { induction doc as [|[u x] doc IH]; intros acc Ha y Hy; [apply Ha, Hy|]. inversion HP; subst. cbn [fold_left] in Hy.
    refine (IH H2 _ _ y Hy). intros z Hz. destruct (u =? t); [injection Hz as <-; exact H1|apply Ha, Hz]. }
  destruct (fold_left _ doc None) eqn:F; [|lra]. apply X in F; [lra|discriminate].
Qed.
Lemma seeds fuel T docs draw : 0 < T -> counts docs -> forall K i rows, seed_topics fuel K T docs draw i = Some (Ok rows) -> length rows = K /\ Forall (full T) rows.
Proof.
  intros HT HP. induction K as [|K IH]; intros i rows H; cbn [seed_topics] in H.
  - injection H as <-. split; [reflexivity|constructor].
  - unfold seed_topic in H. destruct (seed_loop fuel docs draw i (fun _ => 1%R) 0) as [[[row j]|]|] eqn:E; try discriminate.
    destruct (seed_topics fuel K T docs draw j) as [[rs|]|] eqn:E2; try discriminate. injection H as <-.
    destruct (IH j rs E2) as [L F]. split; [cbn; lia|]. constructor; [|exact F].
    apply (VbProps.seed_loop_grows docs draw HP) in E as [G _]. apply scaled_full; [exact HT|]. intros t _. specialize (G t). lra.
Qed.
Lemma seeds_end T docs draw : Forall (fun doc => (1 <= tokens doc)%R) docs -> (forall i, draw i < length docs) ->
  forall K i, exists rows, seed_topics 1000 K T docs draw i = Some (Ok rows).
Proof.
  intros HF HD.
  assert (L : forall fuel i row len, (1000 <= INR fuel + len)%R -> exists r, seed_loop fuel docs draw i row len = Some (Ok r)).
  { induction fuel as [|fuel IH]; intros i row len H; cbn [seed_loop].
    - rewrite (proj2 (rltb_false _ _)) by (cbn in H; lra). eexists; reflexivity.
    - destruct (rltb len 1000); [|eexists; reflexivity].
      destruct (nth_error docs (draw i)) as [doc|] eqn:E; [|apply nth_error_None in E; specialize (HD i); lia].
      apply IH. rewrite S_INR in H. rewrite Forall_forall in HF. specialize (HF doc (nth_error_In _ _ E)). unfold tokens in HF. lra. }
  assert (M : (1000 <= INR 1000 + 0)%R) by (rewrite INR_IZR_INZ; cbn; lra).
  remember 1000 as fuel eqn:EF. clear EF. induction K as [|K IH]; intros i; cbn [seed_topics].
  - eexists; reflexivity.
  - unfold seed_topic. destruct (L fuel i (fun _ => 1%R) 0%R M) as ([row j] & ->).
    destruct (IH j) as (rows & ->). eexists; reflexivity.
Qed.
Lemma seeds_forever T docs draw : Forall (fun doc => tokens doc = 0%R) docs -> (forall i, draw i < length docs) ->
  forall fuel K i, 0 < K -> seed_topics fuel K T docs draw i = None.
Proof.
  intros HF HD fuel K i HK.
  assert (L : forall fuel i row, seed_loop fuel docs draw i row 0 = None).
  { clear fuel i. induction fuel as [|fuel IH]; intros i row; cbn [seed_loop]; rewrite (proj2 (rltb_true _ _)) by lra; [reflexivity|].
    destruct (nth_error docs (draw i)) as [doc|] eqn:E; [|apply nth_error_None in E; specialize (HD i); lia].
    rewrite Forall_forall in HF. specialize (HF doc (nth_error_In _ _ E)). unfold tokens in HF. rewrite HF, Rplus_0_r. apply IH. }
  destruct K; [lia|]. cbn [seed_topics]. unfold seed_topic. rewrite L. reflexivity.
Qed.
Lemma rsum_ge0 l : Forall (fun x => (0 <= x)%R) l -> (0 <= rsum l)%R.
Proof. induction 1; cbn; lra. Qed.
Lemma word_total_ge docs t : counts docs -> (0 <= word_total docs t)%R.
Proof.
  intros HP. unfold word_total. apply rsum_ge0. apply Forall_forall. intros y Hy. apply in_map_iff in Hy as (doc & <- & Hd). apply rsum_ge0. apply Forall_forall. intros z Hz.
  apply in_map_iff in Hz as ((u & x) & <- & He). unfold counts in HP. rewrite Forall_forall in HP. specialize (HP doc Hd). rewrite Forall_forall in HP. specialize (HP _ He). cbn in HP.
  destruct (u =? t); lra.
Qed.
Lemma rsum_pos_in l x : Forall (fun x => (0 <= x)%R) l -> In x l -> (0 < x)%R -> (0 < rsum l)%R.
Proof. induction 1 as [|y l Hy Hl IH]; intros I P; [destruct I|]. change (rsum (y :: l)) with (y + rsum l)%R. pose proof (rsum_ge0 l Hl). destruct I as [->|I]; [lra|specialize (IH I P); lra]. Qed.
Lemma word_total_pos docs t : counts docs -> occurs t docs -> (0 < word_total docs t)%R.
Proof.
  intros HP (doc & x & Hd & Hx & P). unfold counts in HP. rewrite Forall_forall in HP.
  assert (G : forall doc, In doc docs -> Forall (fun x => (0 <= x)%R) (map (fun '(u, x) => if u =? t then x else 0%R) doc)).
  { intros c Hc. apply Forall_forall. intros z Hz. apply in_map_iff in Hz as ((u & y) & <- & He). specialize (HP c Hc). rewrite Forall_forall in HP. specialize (HP _ He). cbn in HP. destruct (u =? t); lra. }
  unfold word_total. apply (rsum_pos_in _ (rsum (map (fun '(u, x) => if u =? t then x else 0%R) doc))).
  - apply Forall_forall. intros y Hy. apply in_map_iff in Hy as (c & <- & Hc). apply rsum_ge0, G, Hc.
  - exact (in_map (fun doc : words => rsum (map (fun '(u, x) => if u =? t then x else 0%R) doc)) docs doc Hd).
  - apply (rsum_pos_in _ x); [apply G, Hd| |exact P]. apply in_map_iff. exists (t, x). rewrite Nat.eqb_refl. split; [reflexivity|exact Hx].
Qed.
Lemma word_total_absent docs t : (forall doc x, In doc docs -> In (t, x) doc -> x = 0%R) -> word_total docs t = 0%R.
Proof.
  intros H. unfold word_total. assert (Z : forall l, (forall x, In x l -> x = 0%R) -> rsum l = 0%R) by (induction l as [|y l IH]; intros Hl; cbn; [reflexivity|]; rewrite (Hl y (or_introl eq_refl)), Rplus_0_l; apply IH; intros x I; apply Hl; right; exact I).
  apply Z. intros y Hy. apply in_map_iff in Hy as (doc & <- & Hd). apply Z. intros z Hz. apply in_map_iff in Hz as ((u & x) & <- & He). destruct (Nat.eqb_spec u t) as [->|]; [apply (H doc x Hd He)|reflexivity].
Qed.
Lemma word_total_sum T docs : of_words T docs -> vsum T (word_total docs) = rsum (map tokens docs).
Proof.
  intros HT. unfold word_total. induction docs as [|doc docs IH].
  - cbn [map]. apply BoundProofs.vsum_0. reflexivity.
  - inversion HT as [|? ? H1 H2]; subst. cbn [map rsum fold_right].
    rewrite vsum_plus. change (fold_right Rplus 0%R (map tokens docs)) with (rsum (map tokens docs)). rewrite <- (IH H2). f_equal. clear IH HT H2 docs.
    induction doc as [|[u x] doc IH]; [cbn [map]; apply BoundProofs.vsum_0; reflexivity|]. inversion H1 as [|? ? A B]; subst. cbn in A.
    change (tokens ((u, x) :: doc)) with (x + tokens doc)%R. rewrite <- (IH B). cbn [map rsum fold_right]. rewrite vsum_plus. f_equal.
    rewrite (StationProofs.vsum_only T u _ A); [rewrite Nat.eqb_refl; reflexivity|]. intros j _ NJ. destruct (Nat.eqb_spec u j) as [->|]; [contradiction|reflexivity].
Qed.

(** ** C227 *)
(** The matrix-variate models: for all corpora and draws. *)
Theorem C227_matrix_variate : forall K T docs draw, 0 < T -> counts docs -> docs <> [] ->
  (1 < K -> exists rows, mtm_new K T docs draw = Ok rows /\ length rows = K /\ Forall (full T) rows) /\
  (K <= 1 -> mtm_new K T docs draw = Raise AssertionError).
Proof.
  intros K T docs draw HT HP HN. unfold mtm_new. split; intros HK.
  - rewrite (proj2 (Nat.ltb_lt 1 K) HK). destruct docs as [|doc0 docs]; [contradiction|]. eexists. split; [reflexivity|]. split; [rewrite map_length, seq_length; reflexivity|].
    apply Forall_forall. intros row Hr. apply in_map_iff in Hr as (k & <- & _). cbv zeta. apply scaled_full; [exact HT|]. intros t _.
    assert (C : Forall (fun e : nat * R => (0 <= snd e)%R) (nth (draw k) (doc0 :: docs) [])).
    { unfold counts in HP. destruct (lt_dec (draw k) (length (doc0 :: docs))) as [L|L]; [rewrite Forall_forall in HP; apply HP, nth_In, L|rewrite nth_overflow by lia; constructor]. }
    pose proof (add_doc_grows (fun _ => 1%R) _ t C). cbv beta in H. lra.
  - rewrite (proj2 (Nat.ltb_ge 1 K)) by lia. reflexivity.
Qed.
(** The correlated models with Böhning's bound: topics that were seeded are full, and the
    first one is the share of every word. *)
Theorem C227_correlated : forall fuel K T docs draw rows, 0 < T -> counts docs -> of_words T docs -> (forall i, draw i < length docs) ->
  ctm_new fuel K T docs draw = Some (Ok rows) ->
  1 < K /\ length rows = K /\ Forall (full T) (tl rows) /\
  (0 < rsum (map tokens docs))%R /\ vsum T (hd (fun _ => 0%R) rows) = 1%R /\
  (forall t, t < T -> hd (fun _ => 0%R) rows t = (word_total docs t / rsum (map tokens docs))%R) /\
  (forall t, t < T -> occurs t docs -> (0 < hd (fun _ => 0%R) rows t)%R).
Proof.
  intros fuel K T docs draw rows HT HP HW HD H. unfold ctm_new in H. destruct (Nat.ltb_spec 1 K) as [HK|HK]; [|discriminate].
  destruct (seed_topics fuel (K - 1) T docs draw 0) as [[rs|]|] eqn:E; try discriminate. cbv zeta in H. injection H as <-.
  destruct (seeds fuel T docs draw HT HP (K - 1) 0 rs E) as (L & F). cbn [length tl hd].
  assert (P : (0 < rsum (map tokens docs))%R).
  { assert (G : Forall (fun x => (0 <= x)%R) (map tokens docs)).
    { apply Forall_forall. intros x Hx. apply in_map_iff in Hx as (doc & <- & Hd). unfold tokens. apply rsum_ge0. apply Forall_forall. intros y Hy. apply in_map_iff in Hy as (e & <- & He).
      unfold counts in HP. rewrite Forall_forall in HP. specialize (HP doc Hd). rewrite Forall_forall in HP. apply HP, He. }
    destruct (rsum_ge0 _ G) as [?|Z]; [assumption|]. exfalso. rewrite (seeds_forever T docs draw) in E; [discriminate| |exact HD|lia].
    clear - G Z. induction docs as [|doc docs IH]; [constructor|]. cbn [map] in G, Z. inversion G; subst. pose proof (rsum_ge0 _ H2). cbn [rsum fold_right] in Z. change (fold_right Rplus 0%R (map tokens docs)) with (rsum (map tokens docs)) in Z.
    constructor; [lra|]. apply IH; [assumption|lra]. }
  rewrite (word_total_sum T docs HW). split; [exact HK|]. split; [cbn; lia|]. split; [exact F|]. split; [exact P|]. split; [|split].
  - unfold Rdiv. rewrite vsum_scale_r, (word_total_sum T docs HW). field. lra.
  - reflexivity.
  - intros t Ht O. apply Rdiv_lt_0_compat; [apply word_total_pos; assumption|exact P].
Qed.
(** Words that do not occur have no probability in it. *)
Theorem C227_absent_words_refuted : forall fuel K T docs draw rows t, (forall doc x, In doc docs -> In (t, x) doc -> x = 0%R) ->
  ctm_new fuel K T docs draw = Some (Ok rows) -> hd (fun _ => 1%R) rows t = 0%R.
Proof.
  intros fuel K T docs draw rows t A H. unfold ctm_new in H. destruct (1 <? K); [|discriminate]. destruct (seed_topics fuel (K - 1) T docs draw 0) as [[rs|]|]; try discriminate.
  injection H as <-. cbn [hd]. rewrite (word_total_absent docs t A). unfold Rdiv. ring.
Qed.
(** The correlated models with Bouchard's bound. *)
Theorem C227_bouchard : forall fuel K T docs draw rows, 0 < T -> counts docs ->
  bouchard_new fuel K T docs draw = Some (Ok rows) -> 1 < K /\ length rows = K /\ Forall (full T) rows.
Proof.
  intros fuel K T docs draw rows HT HP H. unfold bouchard_new in H. destruct (Nat.ltb_spec 1 K) as [HK|HK]; [|discriminate]. split; [exact HK|]. apply (seeds fuel T docs draw HT HP K 0 rows H).
Qed.
(** With documents that are not empty a thousand of them are enough for a topic; *)
Theorem C227_ends : forall K T docs draw, 1 < K -> Forall (fun doc => (1 <= tokens doc)%R) docs -> (forall i, draw i < length docs) ->
  (exists rows, ctm_new 1000 K T docs draw = Some (Ok rows)) /\ exists rows, bouchard_new 1000 K T docs draw = Some (Ok rows).
Proof.
  intros K T docs draw HK HF HD. unfold ctm_new, bouchard_new. rewrite (proj2 (Nat.ltb_lt 1 K) HK). split.
  - destruct (seeds_end T docs draw HF HD (K - 1) 0) as (rows & ->). eexists. reflexivity.
  - apply seeds_end; assumption.
Qed.
(** without any words there is no end, *)
Theorem C227_no_words_refuted : forall fuel K T docs draw, 1 < K -> Forall (fun doc => tokens doc = 0%R) docs -> (forall i, draw i < length docs) ->
  ctm_new fuel K T docs draw = None /\ bouchard_new fuel K T docs draw = None.
Proof.
  intros fuel K T docs draw HK HF HD. unfold ctm_new, bouchard_new. rewrite (proj2 (Nat.ltb_lt 1 K) HK). rewrite (seeds_forever T docs draw HF HD fuel (K - 1) 0) by lia. rewrite (seeds_forever T docs draw HF HD fuel K 0) by lia. split; reflexivity.
Qed.
(** while the matrix-variate models can be made for such corpora.  Means of documents start
    as distributions. *)
Theorem C227_means : forall K r r' d, 0 < K -> (forall k, k < K -> (0 < r d k)%R) -> (forall k, k < K -> (0 <= r' d k)%R) ->
  full K (new_out_means K r d) /\ full K (new_in_means K (new_out_means K r) r' d).
Proof.
  intros K r r' d HK P P'. assert (F : full K (new_out_means K r d)) by (apply scaled_full; assumption). split; [exact F|].
  apply (scaled_full K (fun k => new_out_means K r d k + 1 / 10 * r' d k)%R HK). intros k Hk. pose proof (proj1 F k Hk). pose proof (P' k Hk). lra.
Qed.

(** ** C228 *)
Lemma log_mean_neg K D theta : 1 < K -> 0 < D -> (forall d, d < D -> full K (theta d)) -> (log_mean K D theta < 0)%R.
Proof.
  intros HK HD F. unfold log_mean. assert (I : (0 < INR D * INR K)%R) by (apply Rmult_lt_0_compat; apply lt_0_INR; lia).
  assert (S : (vsum D (fun d => vsum K (fun k => ln (theta d k))) < vsum D (fun _ => 0))%R).
  { apply HyperProps.vsum_lt; [exact HD|]. intros d Hd. destruct (F d Hd) as (P & S1).
    assert (L : forall k, k < K -> (theta d k < 1)%R).
    { intros k Hk. rewrite <- S1. set (j := if k =? 0 then 1 else 0). assert (HJ : j < K /\ j <> k) by (unfold j; destruct (Nat.eqb_spec k 0); lia).
      apply Rlt_le_trans with (theta d k + theta d j)%R; [pose proof (P j (proj1 HJ)); lra|].
      pose proof (vsum_in_le K (fun i => if i =? j then 0%R else theta d i) k) as A.
      assert (B : vsum K (theta d) = (vsum K (fun i => if i =? j then 0 else theta d i) + theta d j)%R).
      { rewrite (vsum_ext K (theta d) (fun i => (if i =? j then 0 else theta d i) + (if i =? j then theta d i else 0))%R) by (intros i _; destruct (i =? j); ring).
        rewrite vsum_plus. f_equal. rewrite (StationProofs.vsum_only K j _ (proj1 HJ)); [rewrite Nat.eqb_refl; reflexivity|]. intros i _ NI. destruct (Nat.eqb_spec i j); [contradiction|reflexivity]. }
      rewrite B. assert (A' : (theta d k <= vsum K (fun i => if i =? j then 0 else theta d i))%R).
      { assert (N0 : forall i, i < K -> (0 <= (if i =? j then 0 else theta d i))%R) by (intros i Hi; destruct (i =? j); [apply Rle_refl|left; apply P, Hi]). specialize (A N0 Hk). cbv beta in A. destruct (Nat.eqb_spec k j); [lia|exact A]. }
      lra. }
    rewrite <- (BoundProofs.vsum_0 K (fun _ => 0%R)) by reflexivity. apply HyperProps.vsum_lt; [lia|]. intros k Hk. rewrite <- ln_1. apply ln_increasing; [apply P, Hk|apply L, Hk]. }
  rewrite (BoundProofs.vsum_0 D (fun _ => 0%R)) in S by reflexivity. unfold Rdiv. pose proof (Rinv_0_lt_compat _ I). nra.
Qed.
(** The topics of a state made from topics are those topics. *)
Theorem C228_topics : forall K D theta d k, 0 < K -> d < D -> (forall d, d < D -> full K (theta d)) -> k < K ->
  vsoftmax K (lda_out K D theta d) k = theta d k.
Proof.
  intros K D theta d k HK HD F Hk. destruct (F d HD) as (P & S).
  unfold vsoftmax. cbv zeta. set (c := (- log_mean K D theta - vmax K (lda_out K D theta d))%R).
  assert (E : forall j, j < K -> exp (lda_out K D theta d j - vmax K (lda_out K D theta d)) = (theta d j * exp c)%R).
  { intros j Hj. transitivity (exp (ln (theta d j)) * exp c)%R; [|rewrite exp_ln by (apply P, Hj); reflexivity]. rewrite <- exp_plus. f_equal. unfold lda_out at 1, c. ring. }
  rewrite (vsum_ext K _ (fun j => theta d j * exp c)%R) by (intros j Hj; apply E, Hj). rewrite vsum_scale_r, S, (E k Hk). pose proof (exp_pos c). field. lra.
Qed.
(** Its variances are positive, and the means that attract links are within a tenth of the
    mean logarithm. *)
Theorem C228_variances : forall K D theta r d k, 1 < K -> d < D -> (forall d, d < D -> full K (theta d)) -> (0 <= r d k < 1)%R ->
  (0 < lda_varc K D theta)%R /\ (lda_out K D theta d k - lda_varc K D theta < lda_in K D theta r d k <= lda_out K D theta d k)%R.
Proof.
  intros K D theta r d k HK HD F Hr. pose proof (log_mean_neg K D theta HK ltac:(lia) F) as N. unfold lda_varc, lda_in. rewrite Rabs_left by lra. split; [lra|]. nra.
Qed.
(** All means together are zero. *)
Theorem C228_centred : forall K D theta, 0 < K -> 0 < D -> vsum K (lda_topic_mean K D theta) = 0%R.
Proof.
  intros K D theta HK HD. assert (INR D <> 0 /\ INR K <> 0)%R as (ND & NK) by (split; apply not_0_INR; lia).
  unfold lda_topic_mean. unfold Rdiv at 1. rewrite vsum_scale_r. rewrite vsum_swap. unfold lda_out.
  rewrite (vsum_ext D _ (fun d => vsum K (fun k => ln (theta d k)) - INR K * log_mean K D theta)%R) by (intros d _; rewrite vsum_minus, vsum_const; reflexivity).
  rewrite vsum_minus, vsum_const. unfold log_mean. field. split; assumption.
Qed.

(** The model's mean is the mean of the documents' means; where all documents have the
    same topics, it has those. *)
Theorem C228_model_mean : forall K D theta p, 0 < K -> 0 < D -> full K p -> (forall d k, d < D -> k < K -> theta d k = p k) ->
  (forall d k, d < D -> k < K -> lda_topic_mean K D theta k = lda_out K D theta d k) /\
  forall k, k < K -> vsoftmax K (lda_topic_mean K D theta) k = p k.
Proof.
  intros K D theta p HK HD F E.
  assert (M : forall d k, d < D -> k < K -> lda_topic_mean K D theta k = lda_out K D theta d k).
  { intros d k Hd Hk. unfold lda_topic_mean. rewrite (vsum_ext D _ (fun _ => lda_out K D theta d k)).
    - rewrite vsum_const. field. apply not_0_INR. lia.
    - intros i Hi. unfold lda_out. rewrite !E by assumption. reflexivity. }
  split; [exact M|]. intros k Hk.
  assert (FT : forall d, d < D -> full K (theta d)).
  { intros d Hd. destruct F as (P & S). split; [intros j Hj; rewrite E by assumption; apply P, Hj|]. rewrite <- S. apply vsum_ext. intros j Hj. apply E; assumption. }
  pose proof (C228_topics K D theta 0 k HK HD FT Hk) as C. rewrite <- (E 0 k HD Hk), <- C.
  unfold vsoftmax. cbv zeta.
  assert (V : vmax K (lda_topic_mean K D theta) = vmax K (lda_out K D theta 0)).
  { unfold vmax. assert (EM : map (lda_topic_mean K D theta) (seq 0 K) = map (lda_out K D theta 0) (seq 0 K)) by (apply map_ext_in; intros j Hj; apply in_seq in Hj; apply M; lia). rewrite EM. reflexivity. }
  rewrite V, (M 0 k HD Hk). f_equal. apply vsum_ext. intros j Hj. rewrite (M 0 j HD Hj). reflexivity.
Qed.

(** ** C229 *)
(** With a model from the sampler all folds start from the same words, and the model is as
    it was: *)
Theorem C229_sampled : forall T train n i samples sum,
  folds T train n i (Sampled samples sum) = (repeat (fun k t => sum k t / INR samples)%R n, Sampled samples sum).
Proof. intros T train n. induction n as [|n IH]; intros i samples sum; cbn [folds repeat]; [reflexivity|]. cbn [one_fold lda_vocab]. rewrite IH. reflexivity. Qed.
(** With a variational one every fold starts from what the one before has learnt, *)
Theorem C229_variational : forall T train n i a vs l, folds T train n i (Variational a) = (vs, l) ->
  length vs = n /\ (0 < n -> nth 0 vs (fun _ _ => 0%R) = norm_rows T a) /\
  (forall j, S j < n -> nth (S j) vs (fun _ _ => 0%R) = norm_rows T (train (i + j) (nth j vs (fun _ _ => 0%R)))).
Proof.
  intros T train n. induction n as [|n IH]; intros i a vs l H; cbn [folds] in H.
  - injection H as <- <-. split; [reflexivity|]. split; [lia|]. intros j Hj. lia.
  - cbn [one_fold lda_vocab] in H. destruct (folds T train n (S i) (Variational (train i (norm_rows T a)))) as (vs', l') eqn:E. injection H as <- <-.
    destruct (IH (S i) _ _ _ E) as (L & Z & S'). split; [cbn; lia|]. split; [reflexivity|]. intros [|j] Hj.
    + rewrite Nat.add_0_r. cbn [nth]. apply Z. lia.
    + change (nth (S (S j)) (norm_rows T a :: vs') (fun _ _ => 0%R)) with (nth (S j) vs' (fun _ _ => 0%R)). rewrite (S' j) by lia. replace (i + S j) with (S i + j) by lia. reflexivity.
Qed.
(** and reading its words once changes it, when they are not normalised already. *)
Theorem C229_read_refuted : exists a a', (forall k t, (0 < a k t)%R) /\ snd (lda_vocab 2 (Variational a)) = Variational a' /\ a' 0 0 <> a 0 0.
Proof.
  exists (fun _ _ => 2%R), (fun _ _ => (2 / (2 + (2 + 0)))%R). split; [intros; lra|]. split; [reflexivity|lra].
Qed.
(** Training changes it too: one iteration of mtm3 on a document of two equal words. *)
Theorem C229_variational_refuted : exists K D T W out a train, train = (fun (_ : nat) v => vocab_update K D T W mtm_beta (exp_means K out) v) /\
  (forall k, k < K -> full T (a k)) /\
  (exists k t, nth 1 (fst (folds T train 2 0 (Variational a))) (fun _ _ => 0%R) k t <> nth 0 (fst (folds T train 2 0 (Variational a))) (fun _ _ => 0%R) k t) /\
  exists k t a', snd (folds T train 2 0 (Variational a)) = Variational a' /\ a' k t <> a k t.
Proof.
  set (a := (fun _ _ => 1 / 2)%R : mat). set (W := (fun _ t => if t =? 0 then 2 else 0)%R : mat).
  exists 2, 1, 2, W, (fun _ _ => 0%R), a. eexists. split; [reflexivity|].
  assert (FA : forall k, k < 2 -> full 2 (a k)) by (intros k _; split; [intros; unfold a; lra|unfold vsum, rsum, a; cbn; lra]). split; [exact FA|].
  assert (X : forall d k, exp_means 2 (fun _ _ => 0%R) d k = 1%R) by (intros; unfold exp_means, vmax; cbn; rewrite Rmax_left by lra; rewrite Rminus_0_r; apply exp_0).
  assert (C : forall v k t, vocab_counts 2 1 W (exp_means 2 (fun _ _ => 0%R)) v k t = (v k t * (W 0%nat t / (v 0%nat t + v 1%nat t)))%R).
  { intros v k t. unfold vocab_counts, quotient, vsum, rsum. cbn [seq map fold_right]. rewrite !X. rewrite !Rmult_1_l, !Rmult_1_r, !Rplus_0_r. reflexivity. }
  assert (V : forall v k, v 0%nat 0%nat = v 1%nat 0%nat -> (0 < v 0%nat 0%nat)%R -> k < 2 ->
    vocab_update 2 1 2 W mtm_beta (exp_means 2 (fun _ _ => 0%R)) v k 0%nat = (101 / 102)%R /\
    vocab_update 2 1 2 W mtm_beta (exp_means 2 (fun _ _ => 0%R)) v k 1%nat = (1 / 102)%R).
  { intros v k E P Hk. unfold vocab_update, norm_rows. unfold vsum, rsum. cbn [seq map fold_right]. rewrite !C. unfold W, mtm_beta. cbn [Nat.eqb].
    replace (v k 0%nat) with (v 0%nat 0%nat) by (destruct k as [|[|k]]; [reflexivity|exact E|lia]). rewrite <- E.
    replace (v 0%nat 0%nat * (2 / (v 0%nat 0%nat + v 0%nat 0%nat)))%R with 1%R by (field; lra).
    replace (v k 1%nat * (0 / (v 0%nat 1%nat + v 1%nat 1%nat)))%R with 0%R by (unfold Rdiv; ring). split; field. }
  assert (N : forall k, norm_rows 2 a k 0%nat = (1 / 2)%R) by (intros k; unfold norm_rows, vsum, rsum, a; cbn; lra).
  set (tr := (fun (_ : nat) v => vocab_update 2 1 2 W mtm_beta (exp_means 2 (fun _ _ => 0%R)) v)).
  assert (N2 : forall k, k < 2 -> norm_rows 2 (tr 0%nat (norm_rows 2 a)) k 0%nat = (101 / 102)%R).
  { intros k Hk. destruct (V (norm_rows 2 a) k) as (V0 & V1); [rewrite !N; reflexivity|rewrite N; lra|exact Hk|].
    unfold norm_rows at 1. unfold vsum, rsum. cbn [seq map fold_right]. unfold tr. rewrite V0, V1. lra. }
  cbn [folds one_fold lda_vocab fst snd nth]. split.
  - exists 0%nat, 0%nat. rewrite (N2 0%nat ltac:(lia)), N. lra.
  - exists 0%nat, 0%nat. eexists. split; [reflexivity|]. destruct (V (norm_rows 2 (tr 0%nat (norm_rows 2 a))) 0%nat) as (V0 & _); [rewrite !N2 by lia; reflexivity|rewrite N2 by lia; lra|lia|].
    unfold tr at 1. rewrite V0. unfold a. lra.
Qed.

Example C227_case : exists rows, ctm_new 1000 3 2 [[(0, 2%R)]; [(0, 1%R); (1, 3%R)]] (fun i => i mod 2) = Some (Ok rows) /\ hd (fun _ => 0%R) rows 0%nat = (1 / 2)%R.
Proof.
  set (docs := [[(0, 2%R)]; [(0, 1%R); (1, 3%R)]]).
  destruct (C227_ends 3 2 docs (fun i => i mod 2)) as ((rows & E) & _); [lia|repeat constructor; unfold tokens; cbn; lra|intros i; apply (Nat.mod_upper_bound i 2); lia|].
  exists rows. split; [exact E|]. destruct (C227_correlated 1000 3 2 docs (fun i => i mod 2) rows) as (_ & _ & _ & _ & _ & H & _); [lia|repeat constructor; cbn; lra|repeat constructor; cbn; lia|intros i; apply (Nat.mod_upper_bound i 2); lia|exact E|].
  rewrite (H 0 ltac:(lia)). unfold word_total, tokens, docs. cbn. lra.
Qed.
Example C228_case : vsoftmax 2 (lda_out 2 3 (fun d k => if k =? 0 then 1 / INR (2 + d) else 1 - 1 / INR (2 + d))%R 1) 0 = (1 / 3)%R.
Proof.
  rewrite C228_topics; [cbn; lra|lia|lia| |lia]. intros d Hd. split.
  - intros t _. destruct d as [|[|[|d]]]; [| | |lia]; destruct (t =? 0); cbn; lra.
  - unfold vsum, rsum. cbn [seq map fold_right Nat.eqb]. lra.
Qed.
Example C229_case : exists vs l, folds 2 (fun _ v => v) 3 0 (Variational (fun _ _ => 1%R)) = (vs, l) /\ length vs = 3 /\ nth 2 vs (fun _ _ => 0%R) 0%nat 1%nat = (1 / 2)%R.
Proof. do 2 eexists. split; [reflexivity|]. split; [reflexivity|]. cbn [nth]. unfold norm_rows, vsum, rsum. cbn. lra. Qed.

Print Assumptions C227_matrix_variate.
Print Assumptions C227_correlated.
Print Assumptions C227_absent_words_refuted.
Print Assumptions C227_bouchard.
Print Assumptions C227_ends.
Print Assumptions C227_no_words_refuted.
Print Assumptions C227_means.
Print Assumptions C228_topics.
Print Assumptions C228_variances.
Print Assumptions C228_centred.
Print Assumptions C228_model_mean.
Print Assumptions C229_sampled.
Print Assumptions C229_variational.
Print Assumptions C229_read_refuted.
Print Assumptions C229_variational_refuted.
