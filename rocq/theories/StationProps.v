(** * C196-C199: what the Gibbs sampler of latent Dirichlet allocation samples from. *)
From Coq Require Import List ZArith QArith Qreals Reals Arith Bool Lqa Lra Lia Permutation.
From Verif Require GammaWitness.
From Verif Require Import Base RealModel RealProofs MixModel MixProofs VbModel VbProofs BoundSpec BoundProofs BoundMore StationSpec StationProofs.
From Verif Require Import EvalSpec EvalProofs CvbModel CvbProofs CvbMore GibbsModel GibbsSpec GibbsProofs GibbsMore GibbsRuns GibbsProps StationGibbs.
Import ListNotations.
Open Scope nat_scope.

(** A visit to the [i]th token of document [d] with the random number [r], in training
    and in a query whose counts of words are [kv] and [k_]: whatever else is in the state. *)
Definition train_moves (K T : nat) (w : nat -> nat) (lens : list nat) (a b : nat -> Q) (special : gst -> nat -> nat -> Z)
    (v : nat * nat) (A : list nat) (r : Q) (A' : list nat) : Prop :=
  forall s, tallied K w lens s -> topics lens s = A ->
  exists s', visit K T w a b false special (fst v) (offset lens (fst v) + snd v) r s = Ok s' /\ tallied K w lens s' /\ topics lens s' = A'.
Definition query_moves (K T : nat) (w : nat -> nat) (lens : list nat) (a : nat -> Q) (special : gst -> nat -> nat -> Z)
    (kv : nat -> nat -> Z) (k_ : nat -> Z) (v : nat * nat) (A : list nat) (r : Q) (A' : list nat) : Prop :=
  forall s, tallied_query K lens kv k_ s -> topics lens s = A ->
  exists s', visit K T w a (fun _ => 0%Q) true special (fst v) (offset lens (fst v) + snd v) r s = Ok s' /\
    tallied_query K lens kv k_ s' /\ topics lens s' = A'.

Lemma after_iff {V} K N (m m' : V -> list nat -> Q -> list nat -> Prop) vs mu mu' :
  (forall v A r A', m v A r A' <-> m' v A r A') -> after K N m vs mu mu' -> after K N m' vs mu mu'.
Proof.
  intros H AF. induction AF as [mu|v vs mu p mu1 mu2 S E AF IH]; [apply after_none|].
  apply after_visit with (p := p) (mu1 := mu1); [|exact E|exact IH]. intros A A' HA HA'.
  apply (share_iff (fun r => m v A r A')); [intros; apply H|]. apply S; assumption.
Qed.
Lemma expects_iff {V} K N (m m' : V -> list nat -> Q -> list nat -> Prop) rs A F x :
  (forall v A r A', m v A r A' <-> m' v A r A') -> expects K N m rs A F x -> expects K N m' rs A F x.
Proof.
  intros H EX. induction EX as [A F|vs rs A F mu e AF EX IH]; [apply expects_none|].
  apply expects_round; [eapply after_iff; [exact H|exact AF]|exact IH].
Qed.
Lemma train_iff K T w lens a b special v A r A' :
  train_moves K T w lens a b special v A r A' <-> gmoves K T w lens false (fun _ _ => 0%Z) (fun _ => 0%Z) a b special v A r A'.
Proof.
  unfold train_moves, gmoves, place. split; intros H s Hs Es; destruct (H s ltac:(apply tallied_ok; exact Hs) Es) as (s' & E & O & T'); exists s';
    (split; [exact E|]; split; [apply tallied_ok; exact O|exact T']).
Qed.
Lemma query_iff K T w lens a special kv k_ v A r A' :
  query_moves K T w lens a special kv k_ v A r A' <-> gmoves K T w lens true kv k_ a (fun _ => 0%Q) special v A r A'.
Proof.
  unfold query_moves, gmoves, place. split; intros H s Hs Es.
  - destruct (H s (proj2 (tallied_query_ok K w lens kv k_ s) Hs) Es) as (s' & E & O & T'). exists s'. split; [exact E|].
    split; [exact (proj1 (tallied_query_ok K w lens kv k_ s') O)|exact T'].
  - destruct (H s (proj1 (tallied_query_ok K w lens kv k_ s) Hs) Es) as (s' & E & O & T'). exists s'. split; [exact E|].
    split; [exact (proj2 (tallied_query_ok K w lens kv k_ s') O)|exact T'].
Qed.

(** What the theorems ask for: what [train] is called with. *)
Definition trainable (K T : nat) (w : nat -> nat) (lens : list nat) (a b : nat -> Q) (special : gst -> nat -> nat -> Z) : Prop :=
  0 < K <= 256 /\ (forall j, j < K -> (0 < a j)%Q) /\ (forall v, v < T -> (0 < b v)%Q) /\
  (forall n, n < total lens -> w n < T) /\ 0 < T /\ (forall s d v, (special s d v < Z.of_nat K)%Z).
Lemma trainable_proper K T w lens a b special : trainable K T w lens a b special -> proper K T w lens (fun _ _ => 0%Z) (fun _ => 0%Z) a b.
Proof.
  intros (HK & Ha & Hb & Hw & HT & _). split; [exact Ha|]. split; [intros m Hm; apply Qlt_le_weak, Hb, Hw, Hm|]. split; [intros; lia|]. split.
  - intros j Hj. split; [lia|]. pose proof (qsum_pos_all b T HT Hb). change (inject_Z 0) with 0%Q. rewrite Qplus_0_l. assumption.
  - intros m Hm. exists 0. split; [lia|]. pose proof (Hb _ (Hw m Hm)). change (inject_Z 0) with 0%Q. rewrite Qplus_0_l. assumption.
Qed.

Section Train.
  Context (K T : nat) (w : nat -> nat) (lens : list nat) (a b : nat -> Q) (special : gst -> nat -> nat -> Z) (g : R -> R).
  Notation N := (total lens).
  Notation D := (length lens).
  Notation A_ := (assignments K N).
  Notation tk := (corpus_tokens w lens).
  Notation alpha := (fun k => Q2R (a k)).
  Notation eta := (fun t => Q2R (b t)).
  Notation post := (posterior g D K T alpha eta tk).
  Notation moves := (train_moves K T w lens a b special).
  Hypothesis TR : trainable K T w lens a b special.
  Hypothesis G : gamma_like g.

  Lemma post_fits v : valid lens v -> fits K N (place lens) (gq K T w lens false (fun _ _ => 0%Z) (fun _ => 0%Z) a b) post v.
  Proof.
    intros Hv. destruct TR as (HK & Ha & Hb & Hw & HT & Hs). apply fits_weights; [eapply trainable_proper, TR|exact Hv|].
    intros A HA. destruct (posterior_weights K T w lens a b g G Ha v A Hv HA Hb Hw) as (C & _ & E).
    exists (C / evidence g D K T alpha eta tk)%R. intros k Hk. unfold posterior. rewrite (E k Hk). unfold Rdiv. ring.
  Qed.
  Lemma post_total : BoundProofs.total K N post = 1%R.
  Proof.
    destruct TR as (HK & _). unfold posterior.
    rewrite (total_ext_in K N _ (fun A => / evidence g D K T alpha eta tk * exp (joint g D K T alpha eta tk A))%R) by (intros; unfold Rdiv; ring).
    rewrite total_scale. unfold evidence at 1. rewrite tokens_length. apply Rinv_l. apply Rgt_not_eq.
    apply (total_pos K N (fun A => exp (joint g D K T alpha eta tk A))); [lia|intros; apply exp_pos].
  Qed.
  Lemma post_nonneg A : (0 <= post A)%R.
  Proof.
    destruct TR as (HK & _). apply Rle_mult_inv_pos; [left; apply exp_pos|]. apply total_pos; [lia|intros; apply exp_pos].
  Qed.
  Lemma gq_pos v A k : valid lens v -> In A A_ -> k < K -> (0 < gq K T w lens false (fun _ _ => 0%Z) (fun _ => 0%Z) a b v A k)%R.
  Proof.
    intros Hv HA Hk. destruct TR as (HK & Ha & Hb & Hw & HT & Hs). unfold gq.
    apply Rdiv_lt_0_compat; [|apply cq_total; [eapply trainable_proper, TR|exact Hv]].
    destruct (posterior_weights K T w lens a b g G Ha v A Hv HA Hb Hw) as (C & PC & E).
    pose proof (exp_pos (joint g D K T alpha eta tk (put (place lens v) k A))) as P. rewrite (E k Hk) in P.
    apply Rmult_lt_reg_l with C; [exact PC|]. lra.
  Qed.
  Lemma sweeps_valid start i n v : In v (flat_map (order lens start) (seq i n)) -> valid lens v.
  Proof. apply in_orders. Qed.

  (** ** C196 *)
  Theorem C196_posterior_kept start n : exists mu,
    after K N moves (flat_map (order lens start) (seq 0 n)) post mu /\
    forall mu, after K N moves (flat_map (order lens start) (seq 0 n)) post mu -> forall A, In A A_ -> mu A = post A.
  Proof.
    pose proof TR as (HK & Ha & Hb & Hw & HT & Hs). pose proof (trainable_proper _ _ _ _ _ _ _ TR) as HP.
    destruct (chain_exists K T w lens false (fun _ _ => 0%Z) (fun _ => 0%Z) a b special (proj1 HK) (proj2 HK) Hs HP
      (flat_map (order lens start) (seq 0 n)) post (sweeps_valid start 0 n)) as (mu & M).
    exists mu. split; [eapply after_iff; [|exact M]; intros; rewrite train_iff; reflexivity|].
    intros mu' M' A HA.
    apply (chain_kept K T w lens false (fun _ _ => 0%Z) (fun _ => 0%Z) a b special (proj1 HK) (proj2 HK) Hs HP post post_fits
      (flat_map (order lens start) (seq 0 n))); [apply sweeps_valid| |exact HA].
    eapply after_iff; [|exact M']. intros; apply train_iff.
  Qed.

  (** ** C197 *)
  Theorem C197_forgets_start e : (0 < e)%R ->
    exists n0, forall start n A0 mu, n0 <= n -> In A0 A_ ->
      after K N moves (flat_map (order lens start) (seq 0 n)) (certainly A0) mu -> (apart K N mu post < e)%R.
  Proof.
    intros He. pose proof TR as (HK & Ha & Hb & Hw & HT & Hs). pose proof (trainable_proper _ _ _ _ _ _ _ TR) as HP.
    destruct (chain_forgets K T w lens false (fun _ _ => 0%Z) (fun _ => 0%Z) a b special (proj1 HK) (proj2 HK) Hs HP post post_fits gq_pos
      (fun A _ => post_nonneg A) post_total e He) as (n0 & H).
    exists n0. intros start n A0 mu Hn HA AF. apply (H start n A0 mu Hn HA). eapply after_iff; [|exact AF]. intros; apply train_iff.
  Qed.

  (** ** C198 *)
  (** Part of the topics, part of the words: what [record] adds up. *)
  Theorem C198_recorded s d k t c : tallied K w lens s -> d < D -> k < K -> t < T ->
    let c' := record K T lens a b false s c in
    Q2R (topic_sum c' d k) = (Q2R (topic_sum c d k) + topic_part K alpha tk d k (topics lens s))%R /\
    Q2R (vocab_sum c' k t) = (Q2R (vocab_sum c k t) + word_part T eta tk k t (topics lens s))%R.
  Proof.
    intros (H1 & H2 & H3 & H4) Hd Hk Ht. pose proof TR as (HK & Ha & Hb & Hw & HT & Hs). cbn [record topic_sum vocab_sum].
    rewrite !Q2R_plus. unfold topic_part, word_part.
    assert (ED : vsum K (fun j => Q2R (a j) + n_doc tk (topics lens s) d j)%R = Q2R (qnat (len_ lens d) + qsum a (seq 0 K))).
    { rewrite (vsum_plus K (fun j => Q2R (a j))), Q2R_plus, Q2R_qsum, Rplus_comm. f_equal.
      rewrite (vsum_ext K _ (fun j => Q2R (inject_Z (doc_topic lens (g_z s) d j)))) by (intros; rewrite (n_doc_topics K) by assumption; symmetry; apply Q2R_inject).
      unfold vsum. rewrite <- Q2R_qsum. apply Qeq_eqR. apply (sum_doc K lens (g_z s) d H1 Hd). }
    assert (EW : vsum T (fun u => Q2R (b u) + n_word tk (topics lens s) k u)%R = Q2R (inject_Z (g_k s k) + qsum b (seq 0 T))).
    { rewrite (vsum_plus T (fun j => Q2R (b j))), Q2R_plus, Q2R_qsum, Rplus_comm. f_equal.
      rewrite (vsum_ext T _ (fun j => Q2R (inject_Z (topic_word w lens (g_z s) k j)))) by (intros; rewrite n_word_topics; symmetry; apply Q2R_inject).
      unfold vsum. rewrite <- Q2R_qsum. apply Qeq_eqR. rewrite H4. apply (sum_words (g_z s) w T lens k Hw). }
    rewrite ED, EW. rewrite !Q2R_div, !Q2R_plus, !Q2R_inject.
    - rewrite (n_doc_topics K) by assumption. rewrite n_word_topics, (H2 d k Hd), (H3 k t). split; f_equal; f_equal; ring.
    - intros Q. pose proof (injZ_nonneg (g_k s k)) as P. rewrite H4 in P. specialize (P (count_nonneg _ _)). rewrite <- H4 in P.
      pose proof (qsum_pos_all b T HT Hb) as P2. apply Qeq_eqR in Q. apply Qle_Rle in P. apply Qlt_Rlt in P2.
      rewrite Q2R_plus, RMicromega.Q2R_0 in *. lra.
    - intros Q. pose proof (qnat_nonneg (len_ lens d)) as P. pose proof (qsum_pos_all a K ltac:(lia) Ha) as P2. apply Qeq_eqR in Q. apply Qle_Rle in P.
      apply Qlt_Rlt in P2. rewrite Q2R_plus, RMicromega.Q2R_0 in *. lra.
  Qed.
  Lemma part_range n (v : vec) i : i < n -> (forall j, j < n -> (0 <= v j)%R) -> (0 < vsum n v)%R -> (0 <= v i / vsum n v <= 1)%R.
  Proof.
    clear. intros Hi P S. split; [apply Rle_mult_inv_pos; auto|]. apply Rmult_le_reg_r with (vsum n v); [exact S|].
    unfold Rdiv. rewrite Rmult_assoc, Rinv_l by lra. rewrite Rmult_1_r, Rmult_1_l. apply vsum_in_le; assumption.
  Qed.
  Theorem C198_averages_converge thin : 0 < thin ->
    exists C, forall start m A0, 0 < m -> In A0 A_ ->
      (forall F, exists x, expects K N moves (rounds lens start thin m) A0 F x) /\
      (forall d k x, d < D -> k < K ->
         let f := topic_part K alpha tk d k in
         expects K N moves (rounds lens start thin m) A0 (fun path => (average f path - mean K N post f) * (average f path - mean K N post f))%R x ->
         (x <= C / INR m)%R) /\
      (forall k t x, k < K -> t < T ->
         let f := word_part T eta tk k t in
         expects K N moves (rounds lens start thin m) A0 (fun path => (average f path - mean K N post f) * (average f path - mean K N post f))%R x ->
         (x <= C / INR m)%R).
  Proof.
    intros Ht. pose proof TR as (HK & Ha & Hb & Hw & HT & Hs). pose proof (trainable_proper _ _ _ _ _ _ _ TR) as HP.
    destruct (chain_averages K T w lens false (fun _ _ => 0%Z) (fun _ => 0%Z) a b special (proj1 HK) (proj2 HK) Hs HP post post_fits gq_pos
      (fun A _ => post_nonneg A) post_total thin Ht) as (C & H).
    exists C. intros start m A0 Hm HA. split; [|split].
    - intros F. destruct (chain_expects K T w lens false (fun _ _ => 0%Z) (fun _ => 0%Z) a b special (proj1 HK) (proj2 HK) Hs HP start thin m A0 F) as (x & X).
      exists x. eapply expects_iff; [|exact X]. intros; rewrite train_iff; reflexivity.
    - intros d k x Hd Hk f X. apply (H start m A0 f x Hm HA); [|eapply expects_iff; [|exact X]; intros; apply train_iff].
      intros A _. apply (part_range K (fun j => alpha j + n_doc tk A d j)%R k Hk); [|apply vsum_pos; [lia|]];
        intros j Hj; pose proof (Q2R_pos _ (Ha j Hj)); pose proof (n_doc_nonneg tk A d j); lra.
    - intros k t x Hk Htt f X. apply (H start m A0 f x Hm HA); [|eapply expects_iff; [|exact X]; intros; apply train_iff].
      intros A _. apply (part_range T (fun j => eta j + n_word tk A k j)%R t Htt); [|apply vsum_pos; [lia|]];
        intros j Hj; pose proof (Q2R_pos _ (Hb j Hj)); pose proof (n_word_nonneg tk A k j); lra.
  Qed.
  (** The limit for the topics is the probability of a topic of one more token. *)
  Theorem C198_limit_predicts d k : d < D -> k < K -> mean K N post (topic_part K alpha tk d k) = next_topic g D K T alpha eta tk d k.
  Proof.
    intros Hd Hk. pose proof TR as (HK & Ha & Hb & Hw & HT & Hs).
    assert (PA : forall k, k < K -> (0 < alpha k)%R) by (intros; apply Q2R_pos; auto).
    assert (PE : forall t, t < T -> (0 < eta t)%R) by (intros; apply Q2R_pos; auto).
    unfold next_topic, next_token, mean, posterior. rewrite tokens_length.
    set (Z := evidence g D K T alpha eta tk). unfold Rdiv. rewrite vsum_scale_r. unfold vsum at 1.
    rewrite (rsum_swap (fun t A => exp (joint g D K T alpha eta ((d, t) :: tk) (k :: A)))). rewrite Rmult_comm, <- rsum_scale, map_map.
    apply rsum_ext. intros A HA. rewrite (Rmult_comm _ (/ Z)), Rmult_assoc. f_equal.
    change (rsum (map (fun x => exp (joint g D K T alpha eta ((d, x) :: tk) (k :: A))) (seq 0 T)))
      with (vsum T (fun t => exp (joint g D K T alpha eta ((d, t) :: tk) (k :: A)))).
    assert (PN : (0 < alpha k + n_doc tk A d k)%R) by (specialize (PA k Hk); pose proof (n_doc_nonneg tk A d k); lra).
    assert (PS : (0 < vsum K (fun j => alpha j + n_doc tk A d j))%R).
    { apply vsum_pos; [lia|]. intros j Hj. specialize (PA j Hj). pose proof (n_doc_nonneg tk A d j). lra. }
    assert (PW : forall t, t < T -> (0 < eta t + n_word tk A k t)%R) by (intros t Htt; specialize (PE t Htt); pose proof (n_word_nonneg tk A k t); lra).
    assert (PV : (0 < vsum T (fun t => eta t + n_word tk A k t))%R) by (apply vsum_pos; [lia|exact PW]).
    rewrite (vsum_ext T _ (fun t => (exp (joint g D K T alpha eta tk A) * topic_part K alpha tk d k A * / vsum T (fun t => eta t + n_word tk A k t)) * (eta t + n_word tk A k t))%R).
    - rewrite vsum_scale. field. lra.
    - intros t Htt. rewrite (joint_cons g G D K T alpha eta PA PE d t tk k A Hd Htt Hk), !exp_plus, !exp_frac by (try assumption; apply PW, Htt).
      unfold topic_part. field. lra.
  Qed.
End Train.

(** A sweep of the sampler is one visit to every token, in an order that does not depend
    on the assignments, each with a random number of its own. *)
Theorem C196_sweep_is_visits K T w lens a b isQuery special start u sw s :
  sweep_docs K T w lens a b isQuery special start u sw s =
  fold_left (fun rs vr => do s <- rs; visit K T w a b isQuery special (fst (fst vr)) (offset lens (fst (fst vr)) + snd (fst vr)) (snd vr) s)
            (combine (order lens start sw) (draws lens u sw)) (Ok s) /\
  length (order lens start sw) = length (draws lens u sw) /\
  Permutation (order lens start sw) (flat_map (fun d => map (pair d) (seq 0 (nth d lens 0))) (seq 0 (length lens))) /\
  draws lens u sw = flat_map (fun d => map (u sw d) (seq 0 (nth d lens 0))) (seq 0 (length lens)).
Proof.
  split; [apply sweep_visits|]. assert (P : Permutation (order lens start sw) (flat_map (fun d => map (pair d) (seq 0 (nth d lens 0))) (seq 0 (length lens)))).
  { unfold order. induction (seq 0 (length lens)) as [|d l IH]; [constructor|]. cbn [flat_map]. apply Permutation_app; [|exact IH].
    apply Permutation_map, visits_perm. }
  split; [|split; [exact P|reflexivity]]. rewrite (Permutation_length P). clear P. unfold draws.
  induction (seq 0 (length lens)) as [|d l IH]; [reflexivity|]. cbn [flat_map]. rewrite !app_length, !map_length, IH. reflexivity.
Qed.

(** ** C199 *)
Lemma given_words_ext g D K alpha phi phi' tk A : (forall k t, In (k, t) (combine A (map snd tk)) -> phi k t = phi' k t) ->
  given_words g D K alpha phi tk A = given_words g D K alpha phi' tk A.
Proof.
  intros H. unfold given_words. f_equal. revert A H. induction tk as [|[d t] tk IH]; intros [|k A] H; try reflexivity.
  cbn [combine map fold_right]. f_equal; [apply H; left; reflexivity|apply IH; intros; apply H; right; assumption].
Qed.
Lemma qsum_zero n : (qsum (fun _ => 0%Q) (seq 0 n) == 0)%Q.
Proof. induction (seq 0 n) as [|x l IH]; [reflexivity|]. rewrite qsum_cons, IH. reflexivity. Qed.

(** What a query is called with: the counts of words it works from. *)
Definition queryable (K : nat) (w : nat -> nat) (lens : list nat) (a : nat -> Q) (special : gst -> nat -> nat -> Z)
    (kv : nat -> nat -> Z) (k_ : nat -> Z) : Prop :=
  0 < K <= 256 /\ (forall j, j < K -> (0 < a j)%Q) /\ (forall s d v, (special s d v < Z.of_nat K)%Z) /\
  (forall j n, j < K -> n < total lens -> (0 <= kv j (w n))%Z) /\ (forall j, j < K -> (0 < k_ j)%Z) /\
  (forall n, n < total lens -> exists j, j < K /\ (0 < kv j (w n))%Z).
Lemma queryable_proper K T w lens a special kv k_ : queryable K w lens a special kv k_ -> proper K T w lens kv k_ a (fun _ => 0%Q).
Proof.
  intros (HK & Ha & _ & H1 & H2 & H3). split; [exact Ha|]. split; [intros; apply Qle_refl|]. split; [intros; apply H1; assumption|]. split.
  - intros j Hj. specialize (H2 j Hj). split; [lia|]. rewrite qsum_zero, Qplus_0_r. change 0%Q with (inject_Z 0). rewrite <- Zlt_Qlt. exact H2.
  - intros m Hm. destruct (H3 m Hm) as (j & Hj & P). exists j. split; [exact Hj|]. rewrite Qplus_0_r. change 0%Q with (inject_Z 0).
    rewrite <- Zlt_Qlt. exact P.
Qed.

Section Query.
  Context (K T : nat) (w : nat -> nat) (lens : list nat) (a : nat -> Q) (special : gst -> nat -> nat -> Z).
  Context (kv : nat -> nat -> Z) (k_ : nat -> Z) (g : R -> R).
  Notation N := (total lens).
  Notation D := (length lens).
  Notation A_ := (assignments K N).
  Notation tk := (corpus_tokens w lens).
  Notation alpha := (fun k => Q2R (a k)).
  Notation phi := (fun k t => (IZR (kv k t) / IZR (k_ k))%R).
  Notation post := (posterior_given g D K alpha phi tk).
  Notation moves := (query_moves K T w lens a special kv k_).
  Hypothesis QR : queryable K w lens a special kv k_.
  Hypothesis G : gamma_like g.
  Let b0 : nat -> Q := fun _ => 0%Q.

  Lemma phi_share k t : word_share T b0 kv k_ k t = phi k t.
  Proof. unfold word_share, b0. rewrite (Qeq_eqR _ _ (qsum_zero T)), RMicromega.Q2R_0, !Rplus_0_r. reflexivity. Qed.
  Lemma given_fits v : valid lens v -> fits K N (place lens) (gq K T w lens true kv k_ a b0) post v.
  Proof.
    intros Hv. pose proof QR as (HK & Ha & Hs & H1 & H2 & H3). apply fits_weights; [eapply queryable_proper, QR|exact Hv|].
    intros A HA. destruct (given_weights K T w lens a b0 g G Ha kv k_ v A Hv HA) as (C & E).
    { intros k Hk. apply (queryable_proper K T w lens a special kv k_ QR). exact Hk. }
    exists (C / rsum (map (given_words g D K alpha phi tk) (assignments K (length tk))))%R. intros k Hk. unfold posterior_given.
    rewrite (given_words_ext g D K alpha phi (word_share T b0 kv k_)) by (intros; symmetry; apply phi_share).
    rewrite (E k Hk). unfold Rdiv. ring.
  Qed.
  Theorem C199_posterior_kept start n : exists mu,
    after K N moves (flat_map (order lens start) (seq 0 n)) post mu /\
    forall mu, after K N moves (flat_map (order lens start) (seq 0 n)) post mu -> forall A, In A A_ -> mu A = post A.
  Proof.
    pose proof QR as (HK & Ha & Hs & _). pose proof (queryable_proper K T w lens a special kv k_ QR) as HP.
    destruct (chain_exists K T w lens true kv k_ a b0 special (proj1 HK) (proj2 HK) Hs HP
      (flat_map (order lens start) (seq 0 n)) post (in_orders lens start 0 n)) as (mu & M).
    exists mu. split; [eapply after_iff; [|exact M]; intros; rewrite query_iff; reflexivity|].
    intros mu' M' A HA.
    apply (chain_kept K T w lens true kv k_ a b0 special (proj1 HK) (proj2 HK) Hs HP post given_fits
      (flat_map (order lens start) (seq 0 n))); [apply in_orders| |exact HA].
    eapply after_iff; [|exact M']. intros; apply query_iff.
  Qed.

  (** Every topic has each word of the query. *)
  Hypothesis ALL : forall j n, j < K -> n < N -> (0 < kv j (w n))%Z.
  Lemma given_pos A : In A A_ -> (0 < given_words g D K alpha phi tk A)%R.
  Proof.
    intros HA. pose proof QR as (HK & Ha & Hs & H1 & H2 & H3). apply in_assignments in HA as [LA HA]. rewrite Forall_forall in HA. unfold given_words. apply Rmult_lt_0_compat; [apply exp_pos|].
    assert (P : forall x, In x (combine tk A) -> (0 < (let '((_, t), k) := x in phi k t))%R).
    { intros [[d t] k] H. pose proof (in_combine_l _ _ _ _ H) as HL. pose proof (in_combine_r _ _ _ _ H) as HR.
      unfold corpus_tokens in HL. apply in_flat_map in HL as (d' & Hd' & HL). apply in_map_iff in HL as (n & En & Hn). injection En as _ <-.
      apply in_seq in Hd'. assert (n < N).
      { assert (HN : In n (seq 0 N)) by (rewrite seq_docs; apply in_flat_map; exists d'; split; [apply in_seq; lia|exact Hn]). apply in_seq in HN. lia. }
      apply Rdiv_lt_0_compat; apply IZR_lt; [apply ALL; [apply HA, HR|assumption]|apply H2, HA, HR]. }
    induction (combine tk A) as [|x l IH]; [cbn; lra|]. cbn [map fold_right]. apply Rmult_lt_0_compat; [apply P; left; reflexivity|].
    apply IH. intros; apply P; right; assumption.
  Qed.
  Lemma rsum_pos_in {X} (f : X -> R) l : l <> [] -> (forall x, In x l -> (0 < f x)%R) -> (0 < rsum (map f l))%R.
  Proof.
    clear. destruct l as [|x l]; intros NE H; [congruence|]. cbn [map]. change (rsum (f x :: map f l)) with (f x + rsum (map f l))%R.
    pose proof (H x (or_introl eq_refl)). assert (0 <= rsum (map f l))%R; [|lra]. apply rsum_nonneg. apply Forall_forall. intros y Hy.
    apply in_map_iff in Hy as (z & <- & Hz). left. apply H. right. exact Hz.
  Qed.
  Lemma assignments_some n : 0 < K -> assignments K n <> [].
  Proof.
    clear. intros HK E. assert (I : In (repeat 0 n) (assignments K n)).
    { apply in_assignments. split; [apply repeat_length|]. apply Forall_forall. intros x Hx. apply repeat_spec in Hx. lia. }
    rewrite E in I. destruct I.
  Qed.
  Lemma given_total_pos : (0 < rsum (map (given_words g D K alpha phi tk) (assignments K (length tk))))%R.
  Proof. pose proof QR as (HK & _). rewrite tokens_length. apply rsum_pos_in; [apply assignments_some; lia|]. exact given_pos. Qed.
  Lemma given_total : BoundProofs.total K N post = 1%R.
  Proof.
    pose proof given_total_pos as P. unfold posterior_given. rewrite tokens_length in P |- *.
    set (W := given_words g D K alpha phi tk) in *. set (Z := rsum (map W A_)) in *.
    rewrite (total_ext_in K N _ (fun A => / Z * W A)%R) by (intros; unfold Rdiv; ring). rewrite total_scale. apply Rinv_l. apply Rgt_not_eq. exact P.
  Qed.
  Lemma given_nonneg A : In A A_ -> (0 <= post A)%R.
  Proof. intros HA. apply Rle_mult_inv_pos; [left; apply given_pos, HA|apply given_total_pos]. Qed.
  Lemma given_gq_pos v A k : valid lens v -> In A A_ -> k < K -> (0 < gq K T w lens true kv k_ a b0 v A k)%R.
  Proof.
    intros Hv HA Hk. pose proof QR as (HK & Ha & Hs & H1 & H2 & H3). pose proof (queryable_proper K T w lens a special kv k_ QR) as HP. unfold gq.
    apply Rdiv_lt_0_compat; [|apply cq_total; [exact HP|exact Hv]]. apply Q2R_pos. unfold cq, cond, conditional_fixed.
    apply Qlt_shift_div_l; [apply HP; exact Hk|]. rewrite Qmult_0_l. apply Qmult_lt_0_compat.
    - match goal with |- (0 < inject_Z ?z + _)%Q => assert (0 <= inject_Z z)%Q by (apply injZ_nonneg, count_nonneg) end. specialize (Ha k Hk). Lqa.lra.
    - unfold b0. rewrite Qplus_0_r. change 0%Q with (inject_Z 0). rewrite <- Zlt_Qlt. apply ALL; [exact Hk|apply valid_place, Hv].
  Qed.
  Theorem C199_forgets_start e : (0 < e)%R ->
    exists n0, forall start n A0 mu, n0 <= n -> In A0 A_ ->
      after K N moves (flat_map (order lens start) (seq 0 n)) (certainly A0) mu -> (apart K N mu post < e)%R.
  Proof.
    intros He. pose proof QR as (HK & Ha & Hs & _). pose proof (queryable_proper K T w lens a special kv k_ QR) as HP.
    destruct (chain_forgets K T w lens true kv k_ a b0 special (proj1 HK) (proj2 HK) Hs HP post given_fits given_gq_pos
      given_nonneg given_total e He) as (n0 & H).
    exists n0. intros start n A0 mu Hn HA AF. apply (H start n A0 mu Hn HA). eapply after_iff; [|exact AF]. intros; apply query_iff.
  Qed.
  Theorem C199_averages_converge thin : 0 < thin ->
    exists C, forall start m A0, 0 < m -> In A0 A_ ->
      (forall F, exists x, expects K N moves (rounds lens start thin m) A0 F x) /\
      (forall d k x, d < D -> k < K ->
         let f := topic_part K alpha tk d k in
         expects K N moves (rounds lens start thin m) A0 (fun path => (average f path - mean K N post f) * (average f path - mean K N post f))%R x ->
         (x <= C / INR m)%R).
  Proof.
    intros Ht. pose proof QR as (HK & Ha & Hs & _). pose proof (queryable_proper K T w lens a special kv k_ QR) as HP.
    destruct (chain_averages K T w lens true kv k_ a b0 special (proj1 HK) (proj2 HK) Hs HP post given_fits given_gq_pos
      given_nonneg given_total thin Ht) as (C & H).
    exists C. intros start m A0 Hm HA. split.
    - intros F. destruct (chain_expects K T w lens true kv k_ a b0 special (proj1 HK) (proj2 HK) Hs HP start thin m A0 F) as (x & X).
      exists x. eapply expects_iff; [|exact X]. intros; rewrite query_iff; reflexivity.
    - intros d k x Hd Hk f X. apply (H start m A0 f x Hm HA); [|eapply expects_iff; [|exact X]; intros; apply query_iff].
      intros A _. apply (part_range K (fun j => alpha j + n_doc tk A d j)%R k Hk); [|apply vsum_pos; [lia|]];
        intros j Hj; pose proof (Q2R_pos _ (Ha j Hj)); pose proof (n_doc_nonneg tk A d j); lra.
  Qed.
End Query.

(** The counts a query works from are the model's, scaled, and those of its own first
    assignment. *)
Theorem C199_query_counts K T w lens a special r1 r2 plan model z wd : word_dists model = Some wd -> assigned lens K z ->
  exists s c, query K T w lens a special r1 r2 plan model z = run_plan K T w lens a (fun _ => 0%Q) true special r1 r2 plan s c /\
    topics lens s = map z (seq 0 (total lens)) /\
    tallied_query K lens (fun k v => truncQ (wd k v * 1000000) + topic_word w lens z k v)%Z
      (fun k => sumZ (map (fun v => truncQ (wd k v * 1000000)) (seq 0 T)) + topic_all lens z k)%Z s.
Proof.
  intros E Hz. unfold query. rewrite E. do 2 eexists. split; [reflexivity|].
  pose proof (query_init K w lens z (fun k v => truncQ (wd k v * 1000000)) (fun k => sumZ (map (fun v => truncQ (wd k v * 1000000)) (seq 0 T))) Hz) as H.
  split; [|exact (proj2 (tallied_query_ok K w lens _ _ _) H)].
  unfold topics. destruct (sum_suff_stats_ok w lens z (fun k v => truncQ (wd k v * 1000000)) (fun k => sumZ (map (fun v => truncQ (wd k v * 1000000)) (seq 0 T)))) as (Ez & _).
  rewrite Ez. reflexivity.
Qed.

(** One token, two topics, two words, all words equally likely under the model, whose
    counts are half a million each; the query's first assignment adds one. *)
Definition hq_kv : nat -> nat -> Z := fun k v => (truncQ ((1#2) * 1000000) + topic_word (fun _ => 0%nat) [1%nat] (fun _ => 0%nat) k v)%Z.
Definition hq_k : nat -> Z := fun k => (sumZ (map (fun _ => truncQ ((1#2) * 1000000)) (seq 0 2)) + topic_all [1%nat] (fun _ => 0%nat) k)%Z.
Lemma hq_queryable : queryable 2 (fun _ => 0) [1] (fun _ => 1%Q) ex_special hq_kv hq_k.
Proof.
  assert (KV : forall j, j < 2 -> (0 < hq_kv j 0)%Z) by (intros [|[|j]] Hj; [reflexivity|reflexivity|lia]).
  split; [lia|]. split; [reflexivity|]. split; [intros; unfold ex_special; lia|].
  split; [intros j n Hj _; specialize (KV j Hj); lia|]. split; [intros [|[|j]] Hj; [reflexivity|reflexivity|lia]|].
  intros n _. exists 0. split; [lia|]. apply KV. lia.
Qed.
Lemma hq_half g k : gamma_like g -> k < 2 ->
  posterior_given g 1 2 (fun _ => Q2R 1) (fun _ _ => Q2R (1#2)) (corpus_tokens (fun _ => 0) [1]) [k] = (1 / 2)%R.
Proof.
  intros G Hk. unfold posterior_given. change (corpus_tokens (fun _ => 0) [1]) with [(0, 0)].
  change (assignments 2 (length [(0, 0)])) with [[0]; [1]].
  set (alpha := fun _ : nat => Q2R 1). set (x := docs_part g 1 2 alpha [] []).
  assert (PA : forall k, k < 2 -> (0 < alpha k)%R) by (intros; unfold alpha; rewrite RMicromega.Q2R_1; lra).
  assert (W : forall k, k < 2 -> given_words g 1 2 alpha (fun _ _ => Q2R (1#2)) [(0, 0)] [k] = (exp x * (1 / 2) * (1 / 2))%R).
  { intros k' Hk'. unfold given_words. cbn [combine map fold_right].
    change (vsum 1 (fun d => lnB g 2 (fun k0 => alpha k0 + n_doc [(0%nat, 0%nat)] [k'] d k0) - lnB g 2 alpha)%R) with (docs_part g 1 2 alpha ((0, 0) :: []) (k' :: [])).
    rewrite (docs_cons g 1 2 alpha 0 0 [] k' [] G PA ltac:(lia) Hk'). change (docs_part g 1 2 alpha [] []) with x. clearbody x. rewrite exp_plus.
    match goal with |- context [vsum 2 ?f] => replace (vsum 2 f) with 2%R end.
    2:{ rewrite (vsum_ext 2 _ (fun _ => 1%R)) by (intros; unfold alpha; rewrite RMicromega.Q2R_1; unfold n_doc; cbn; lra). rewrite vsum_const. change (INR 2) with (1 + 1)%R. ring. }
    match goal with |- context [n_doc ?x ?y ?z ?u] => change (n_doc x y z u) with 0%R end. unfold alpha. rewrite RMicromega.Q2R_1, Rplus_0_r, exp_frac by lra. unfold Q2R. cbn [Qnum Qden]. field. }
  cbn [map]. unfold rsum. cbn [fold_right]. rewrite (W k Hk), (W 0), (W 1) by lia. pose proof (exp_pos x). field. lra.
Qed.
Theorem C199_models_words_refuted : forall g, gamma_like g ->
  exists K T w lens a special model wd z r1 r2 plan s c kv k_ start mu A,
    word_dists model = Some wd /\ (forall k t, k < K -> t < T -> (0 < wd k t)%Q) /\ (forall k, k < K -> (qsum (wd k) (seq 0 T) == 1)%Q) /\
    assigned lens K z /\ queryable K w lens a special kv k_ /\
    query K T w lens a special r1 r2 plan model z = run_plan K T w lens a (fun _ => 0%Q) true special r1 r2 plan s c /\ tallied_query K lens kv k_ s /\
    let model_posterior := posterior_given g (length lens) K (fun k => Q2R (a k)) (fun k t => Q2R (wd k t)) (corpus_tokens w lens) in
    after K (total lens) (query_moves K T w lens a special kv k_) (order lens start 0) model_posterior mu /\
    In A (assignments K (total lens)) /\ mu A <> model_posterior A.
Proof.
  intros g G. set (w := fun _ : nat => 0). set (a := fun _ : nat => 1%Q). set (start := fun _ _ : nat => 0).
  set (model := mkAcc (fun _ _ => 0%Q) (fun _ _ => 1#2)%Q 1). set (wd := fun _ _ : nat => ((1#2) / qnat 1)%Q).
  assert (EW : word_dists model = Some wd) by reflexivity.
  assert (Z0 : assigned [1] 2 (fun _ => 0)) by (intros n _; cbn; lia).
  destruct (C199_query_counts 2 2 w [1] a ex_special (ex_u (1#2)) (ex_u (1#2)) (2, 1, 1)%Z model (fun _ => 0) wd EW Z0) as (s & c & Q & _ & TQ).
  change (tallied_query 2 [1] hq_kv hq_k s) in TQ.
  set (mp := posterior_given g 1 2 (fun k => Q2R (a k)) (fun k t => Q2R (wd k t)) (corpus_tokens w [1])).
  assert (HM : forall k, k < 2 -> mp [k] = (1 / 2)%R) by (intros k Hk; apply (hq_half g k G Hk)).
  pose proof hq_queryable as QR. pose proof QR as (HK & Ha & Hs & _). pose proof (queryable_proper 2 2 w [1] a ex_special hq_kv hq_k QR) as HP.
  assert (V : forall v, In v (order [1] start 0) -> valid [1] v) by (intros; eapply order_valid; eassumption).
  destruct (chain_exists 2 2 w [1] true hq_kv hq_k a (fun _ => 0%Q) ex_special (proj1 HK) (proj2 HK) Hs HP (order [1] start 0) mp V) as (mu & M).
  exists 2, 2, w, [1], a, ex_special, model, wd, (fun _ => 0), (ex_u (1#2)), (ex_u (1#2)), (2, 1, 1)%Z, s, c, hq_kv, hq_k, start, mu, [0].
  split; [exact EW|]. split; [reflexivity|]. split; [reflexivity|]. split; [exact Z0|]. split; [exact QR|]. split; [exact Q|]. split; [exact TQ|].
  cbv zeta. change (length [1]) with 1. fold mp. split; [eapply after_iff; [|exact M]; intros; rewrite query_iff; reflexivity|]. split; [left; reflexivity|].
  change (total [1]) with 1 in M.
  rewrite (after_steps 2 1 (place [1]) (gq 2 2 w [1] true hq_kv hq_k a (fun _ => 0%Q)) _ _ _ _
    (chain_share 2 2 w [1] true hq_kv hq_k a (fun _ => 0%Q) ex_special (proj1 HK) (proj2 HK) Hs HP _ V) M [0] ltac:(left; reflexivity)).
  change (order [1] start 0) with [(0, 0)]. unfold steps. cbn [fold_left]. unfold step, BoundProofs.total. change (assignments 2 1) with [[0]; [1]].
  cbn [map]. unfold rsum. cbn [fold_right]. rewrite !HM by lia.
  assert (C0 : forall A, In A [[0]; [1]] -> Qeq (cq 2 w [1] true hq_kv hq_k a (fun _ => 0%Q) (0, 0) A 0) (500001 # 1000001)).
  { intros A [<-|[<-|[]]]; vm_compute; reflexivity. }
  assert (C1 : forall A, In A [[0]; [1]] -> Qeq (cq 2 w [1] true hq_kv hq_k a (fun _ => 0%Q) (0, 0) A 1) (1 # 2)).
  { intros A [<-|[<-|[]]]; vm_compute; reflexivity. }
  assert (PR : forall A, In A [[0]; [1]] -> prob (place [1]) (gq 2 2 w [1] true hq_kv hq_k a (fun _ => 0%Q)) (0, 0) A [0] =
            (500001 / 1000001 / (500001 / 1000001 + 1 / 2))%R).
  { intros A HA. unfold prob. replace (eqa (put (place [1] (0, 0)) (nth (place [1] (0, 0)) [0] 0) A) [0]) with true
      by (destruct HA as [<-|[<-|[]]]; reflexivity).
    change (nth (place [1] (0, 0)) [0] 0) with 0. unfold gq, vsum, rsum. cbn [seq map fold_right].
    rewrite (Qeq_eqR _ _ (C0 A HA)), (Qeq_eqR _ _ (C1 A HA)). unfold Q2R. cbn [Qnum Qden]. f_equal; lra. }
  rewrite !PR by (cbn; auto). lra.
Qed.

(** ** Examples: two tokens, both the word 0 of two, in one document; two topics. *)
Definition two_w : nat -> nat := fun _ => 0.
Definition one_q : nat -> Q := fun _ => 1%Q.
Lemma two_trainable : trainable 2 2 two_w [2] one_q one_q ex_special.
Proof.
  split; [lia|]. split; [reflexivity|]. split; [reflexivity|]. split; [intros; unfold two_w; lia|]. split; [lia|]. intros; unfold ex_special; lia.
Qed.
Section TwoTokens.
  Let ones : vec := fun k => Q2R (one_q k).
  Let g := GammaWitness.lnGamma.
  Let x := joint g 1 2 2 ones ones [] [].
  Lemma two_joint k1 k2 : k1 < 2 -> k2 < 2 ->
    exp (joint g 1 2 2 ones ones (corpus_tokens two_w [2]) [k1; k2]) = (exp x * (if k1 =? k2 then 1 / 9 else 1 / 24))%R.
  Proof.
    intros H1 H2. assert (PA : forall k, k < 2 -> (0 < ones k)%R) by (intros; unfold ones, one_q; rewrite RMicromega.Q2R_1; lra).
    change (corpus_tokens two_w [2]) with [(0, 0); (0, 0)].
    rewrite (joint_cons g GammaWitness.lnGamma_rec 1 2 2 ones ones PA PA 0 0 [(0, 0)] k1 [k2]) by lia.
    rewrite (joint_cons g GammaWitness.lnGamma_rec 1 2 2 ones ones PA PA 0 0 [] k2 []) by lia.
    change (joint g 1 2 2 ones ones [] []) with x. rewrite !exp_plus. generalize (exp x). intros y. unfold n_doc, n_word, vsum, rsum.
    assert (O : forall k, ones k = 1%R) by (intros; unfold ones, one_q; apply RMicromega.Q2R_1).
    destruct k1 as [|[|k1]]; [| |lia]; (destruct k2 as [|[|k2]]; [| |lia]); cbn [combine map fold_right seq Nat.eqb andb]; rewrite !O, !exp_frac by lra; field.
  Qed.
  Lemma two_posterior k1 k2 : k1 < 2 -> k2 < 2 ->
    posterior g 1 2 2 ones ones (corpus_tokens two_w [2]) [k1; k2] = (if k1 =? k2 then 4 / 11 else 3 / 22)%R.
  Proof.
    intros H1 H2. unfold posterior, evidence. change (assignments 2 (length (corpus_tokens two_w [2]))) with [[0; 0]; [0; 1]; [1; 0]; [1; 1]].
    cbn [map]. unfold rsum. cbn [fold_right]. rewrite !two_joint by lia. cbn [Nat.eqb]. pose proof (exp_pos x). destruct (k1 =? k2); field; lra.
  Qed.
End TwoTokens.
Example C196_case :
  trainable 2 2 two_w [2] one_q one_q ex_special /\ gamma_like GammaWitness.lnGamma /\
  order [2] (fun _ _ => 0) 0 = [(0, 1); (0, 0)] /\
  let post := posterior GammaWitness.lnGamma 1 2 2 (fun k => Q2R (one_q k)) (fun k => Q2R (one_q k)) (corpus_tokens two_w [2]) in
  post [0; 0] = (4 / 11)%R /\ post [0; 1] = (3 / 22)%R.
Proof.
  split; [exact two_trainable|]. split; [exact GammaWitness.lnGamma_rec|]. split; [reflexivity|]. cbv zeta. split; apply two_posterior; lia.
Qed.
(** A visit to the second token from the first assignment. *)
Example C197_case : exists mu, after 2 2 (train_moves 2 2 two_w [2] one_q one_q ex_special) [(0, 1)] (certainly [0; 0]) mu /\
  mu [0; 0] = (8 / 11)%R /\ mu [0; 1] = (3 / 11)%R.
Proof.
  pose proof two_trainable as TR. pose proof TR as (HK & Ha & Hb & Hw & HT & Hs). pose proof (trainable_proper _ _ _ _ _ _ _ TR) as HP.
  assert (V : forall v, In v [(0, 1)] -> valid [2] v) by (intros v [<-|[]]; split; cbn; lia).
  destruct (chain_exists 2 2 two_w [2] false (fun _ _ => 0%Z) (fun _ => 0%Z) one_q one_q ex_special (proj1 HK) (proj2 HK) Hs HP [(0, 1)] (certainly [0; 0]) V) as (mu & M).
  exists mu. split; [eapply after_iff; [|exact M]; intros; rewrite train_iff; reflexivity|].
  pose proof (after_steps 2 2 (place [2]) (gq 2 2 two_w [2] false (fun _ _ => 0%Z) (fun _ => 0%Z) one_q one_q) _ _ _ _
    (chain_share 2 2 two_w [2] false (fun _ _ => 0%Z) (fun _ => 0%Z) one_q one_q ex_special (proj1 HK) (proj2 HK) Hs HP _ V) M) as S.
  assert (C0 : Qeq (cq 2 two_w [2] false (fun _ _ => 0%Z) (fun _ => 0%Z) one_q one_q (0, 1) [0; 0] 0) (4 # 3)) by (vm_compute; reflexivity).
  assert (C1 : Qeq (cq 2 two_w [2] false (fun _ _ => 0%Z) (fun _ => 0%Z) one_q one_q (0, 1) [0; 0] 1) (1 # 2)) by (vm_compute; reflexivity).
  split; (rewrite S by (cbn; auto)); unfold steps, step, BoundProofs.total; cbn [fold_left]; change (assignments 2 2) with [[0; 0]; [0; 1]; [1; 0]; [1; 1]];
    cbn [map]; unfold rsum; cbn [fold_right]; unfold certainly, prob;
    change (place [2] (0, 1)) with 1; cbn [nth put];
    repeat match goal with |- context [list_eq_dec Nat.eq_dec ?p ?q] => destruct (list_eq_dec Nat.eq_dec p q); [try discriminate|try congruence] end;
    unfold eqa; repeat match goal with |- context [list_eq_dec Nat.eq_dec ?p ?q] => destruct (list_eq_dec Nat.eq_dec p q); [try discriminate|try congruence] end;
    rewrite ?Rmult_0_l; unfold gq, vsum, rsum; cbn [seq map fold_right]; rewrite (Qeq_eqR _ _ C0), (Qeq_eqR _ _ C1); unfold Q2R; cbn [Qnum Qden]; field.
Qed.
(** What is recorded and what its averages converge to. *)
Example C198_case :
  let part := topic_part 2 (fun k => Q2R (one_q k)) (corpus_tokens two_w [2]) 0 0 in
  let post := posterior GammaWitness.lnGamma 1 2 2 (fun k => Q2R (one_q k)) (fun k => Q2R (one_q k)) (corpus_tokens two_w [2]) in
  part [0; 0] = (3 / 4)%R /\ part [0; 1] = (1 / 2)%R /\ part [1; 0] = (1 / 2)%R /\ part [1; 1] = (1 / 4)%R /\ mean 2 2 post part = (1 / 2)%R /\
  rounds [2] (fun _ _ => 0) 2 2 = [[(0, 1); (0, 0); (0, 1); (0, 0)]; [(0, 1); (0, 0); (0, 1); (0, 0)]].
Proof.
  cbv zeta. assert (O : forall k, Q2R (one_q k) = 1%R) by (intros; unfold one_q; apply RMicromega.Q2R_1).
  assert (P : forall k1 k2, k1 < 2 -> k2 < 2 -> topic_part 2 (fun k => Q2R (one_q k)) (corpus_tokens two_w [2]) 0 0 [k1; k2] =
     ((1 + (if k1 =? 0 then 1 else 0) + (if k2 =? 0 then 1 else 0)) / 4)%R).
  { intros k1 k2 H1 H2. unfold topic_part, n_doc, vsum, rsum. change (corpus_tokens two_w [2]) with [(0, 0); (0, 0)].
    destruct k1 as [|[|k1]]; [| |lia]; (destruct k2 as [|[|k2]]; [| |lia]); cbn [combine map fold_right seq Nat.eqb andb]; rewrite !O; field. }
  rewrite !P by lia. cbn [Nat.eqb]. repeat (split; [field|]). split; [|reflexivity].
  unfold mean. change (assignments 2 2) with [[0; 0]; [0; 1]; [1; 0]; [1; 1]]. cbn [map]. unfold rsum. cbn [fold_right].
  rewrite !P, !two_posterior by lia. cbn [Nat.eqb]. field.
Qed.
(** The counts of the query with one token. *)
Example C199_case : queryable 2 (fun _ => 0) [1] (fun _ => 1%Q) ex_special hq_kv hq_k /\
  map (fun k => hq_kv k 0) [0; 1] = [500001%Z; 500000%Z] /\ map hq_k [0; 1] = [1000001%Z; 1000000%Z].
Proof. split; [exact hq_queryable|]. split; reflexivity. Qed.

Print Assumptions C196_posterior_kept.
Print Assumptions C197_forgets_start.
Print Assumptions C198_recorded.
Print Assumptions C198_averages_converge.
Print Assumptions C198_limit_predicts.
Print Assumptions C196_sweep_is_visits.
Print Assumptions C199_posterior_kept.
Print Assumptions C199_forgets_start.
Print Assumptions C199_averages_converge.
Print Assumptions C199_query_counts.
Print Assumptions C199_models_words_refuted.
