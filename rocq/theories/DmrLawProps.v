(** * C207-C208: what the sampler of Dirichlet-multinomial regression samples from. *)
From Coq Require Import List ZArith QArith Qreals Reals Arith Bool Lqa Lra Lia Permutation.
From Verif Require GammaWitness DmrReal.
From Verif Require Import Base RealModel RealProofs MixModel MixProofs VbModel VbProofs BoundSpec BoundProofs BoundMore StationSpec StationProofs.
From Verif Require Import EvalSpec EvalProofs CvbModel CvbProofs CvbMore GibbsModel GibbsSpec GibbsProofs GibbsMore GibbsRuns GibbsProps StationGibbs StationProps.
From Verif Require Import DmrModel DmrLawSpec DmrLaw.
Import ListNotations.
Open Scope nat_scope.

(** A visit to the [i]th token of document [d] with the random number [r], in training
    and in a query whose counts of words are [kv] and [k_]: whatever else is in the state.
    [al d] is the prior of document [d]. *)
Definition dmr_moves (K T : nat) (w : nat -> nat) (lens : list nat) (al : nat -> nat -> Q) (b : nat -> Q) (special : gst -> nat -> nat -> Z)
    (v : nat * nat) (A : list nat) (r : Q) (A' : list nat) : Prop :=
  forall s, tallied K w lens s -> topics lens s = A ->
  exists s', visit K T w (al (fst v)) b false special (fst v) (offset lens (fst v) + snd v) r s = Ok s' /\ tallied K w lens s' /\ topics lens s' = A'.
Definition dmr_query_moves (K T : nat) (w : nat -> nat) (lens : list nat) (al : nat -> nat -> Q) (b : nat -> Q) (special : gst -> nat -> nat -> Z)
    (kv : nat -> nat -> Z) (k_ : nat -> Z) (v : nat * nat) (A : list nat) (r : Q) (A' : list nat) : Prop :=
  forall s, tallied_query K lens kv k_ s -> topics lens s = A ->
  exists s', visit K T w (al (fst v)) b true special (fst v) (offset lens (fst v) + snd v) r s = Ok s' /\
    tallied_query K lens kv k_ s' /\ topics lens s' = A'.
Lemma dmr_iff K T w lens al b special v A r A' :
  dmr_moves K T w lens al b special v A r A' <-> rmoves K T w lens false (fun _ _ => 0%Z) (fun _ => 0%Z) al b special v A r A'.
Proof. apply (train_iff K T w lens (al (fst v)) b special). Qed.
Lemma dmr_query_iff K T w lens al b special kv k_ v A r A' :
  dmr_query_moves K T w lens al b special kv k_ v A r A' <-> rmoves K T w lens true kv k_ al b special v A r A'.
Proof.
  unfold dmr_query_moves, rmoves, gmoves, place. split; intros H s Hs Es.
  - destruct (H s (proj2 (tallied_query_ok K w lens kv k_ s) Hs) Es) as (s' & E & O & T'). exists s'. split; [exact E|].
    split; [exact (proj1 (tallied_query_ok K w lens kv k_ s') O)|exact T'].
  - destruct (H s (proj1 (tallied_query_ok K w lens kv k_ s) Hs) Es) as (s' & E & O & T'). exists s'. split; [exact E|].
    split; [exact (proj2 (tallied_query_ok K w lens kv k_ s') O)|exact T'].
Qed.

(** What the theorems ask for: the priors that the weights give are positive. *)
Definition dmr_trainable (K T : nat) (w : nat -> nat) (lens : list nat) (al : nat -> nat -> Q) (b : nat -> Q) (special : gst -> nat -> nat -> Z) : Prop :=
  0 < K <= 256 /\ (forall d j, d < length lens -> j < K -> (0 < al d j)%Q) /\ (forall v, v < T -> (0 < b v)%Q) /\
  (forall n, n < total lens -> w n < T) /\ 0 < T /\ (forall s d v, (special s d v < Z.of_nat K)%Z).
Lemma dmr_trainable_proper K T w lens al b special : dmr_trainable K T w lens al b special ->
  forall d, d < length lens -> proper K T w lens (fun _ _ => 0%Z) (fun _ => 0%Z) (al d) b.
Proof.
  intros (HK & Ha & Hb & Hw & HT & Hs) d Hd. apply (trainable_proper K T w lens (al d) b special).
  split; [exact HK|]. split; [intros j Hj; apply Ha; assumption|]. split; [exact Hb|]. split; [exact Hw|]. split; [exact HT|exact Hs].
Qed.

Section Train.
  Context (K T F : nat) (w : nat -> nat) (lens : list nat) (X weights : nat -> nat -> Q) (b : nat -> Q) (special : gst -> nat -> nat -> Z) (g : R -> R).
  Notation N := (total lens).
  Notation D := (length lens).
  Notation A_ := (assignments K N).
  Notation tk := (corpus_tokens w lens).
  Notation al := (dmr_alphas F X weights).
  Notation alpha := (fun d k => Q2R (al d k)).
  Notation eta := (fun t => Q2R (b t)).
  Notation post := (rposterior g D K T alpha eta tk).
  Notation moves := (dmr_moves K T w lens al b special).
  Notation q := (rq K T w lens false (fun _ _ => 0%Z) (fun _ => 0%Z) al b).
  Hypothesis TR : dmr_trainable K T w lens al b special.
  Hypothesis G : gamma_like g.

  Lemma rpost_fits v : valid lens v -> fits K N (place lens) q post v.
  Proof.
    intros Hv. pose proof TR as (HK & Ha & Hb & Hw & HT & Hs).
    apply (fits_weights K T w lens false (fun _ _ => 0%Z) (fun _ => 0%Z) (al (fst v)) b); [eapply dmr_trainable_proper; [exact TR|apply Hv]|exact Hv|].
    intros A HA. destruct (rposterior_weights K T w lens al b g G Ha v A Hv HA Hb Hw) as (C & _ & E).
    exists (C / rsum (map (fun a => exp (rjoint g D K T alpha eta tk a)) (assignments K (length tk))))%R.
    intros k Hk. unfold rposterior. rewrite (E k Hk). unfold Rdiv. ring.
  Qed.
  Lemma rpost_total : BoundProofs.total K N post = 1%R.
  Proof.
    pose proof TR as (HK & _). unfold rposterior. set (Z := rsum _).
    rewrite (total_ext_in K N _ (fun A => / Z * exp (rjoint g D K T alpha eta tk A))%R) by (intros; unfold Rdiv; ring).
    rewrite total_scale. unfold Z. rewrite tokens_length. apply Rinv_l. apply Rgt_not_eq.
    apply (total_pos K N (fun A => exp (rjoint g D K T alpha eta tk A))); [lia|intros; apply exp_pos].
  Qed.
  Lemma rpost_nonneg A : (0 <= post A)%R.
  Proof.
    pose proof TR as (HK & _). apply Rle_mult_inv_pos; [left; apply exp_pos|]. apply total_pos; [lia|intros; apply exp_pos].
  Qed.
  Lemma rq_pos v A k : valid lens v -> In A A_ -> k < K -> (0 < q v A k)%R.
  Proof.
    intros Hv HA Hk. pose proof TR as (HK & Ha & Hb & Hw & HT & Hs). unfold rq, gq.
    apply Rdiv_lt_0_compat; [|apply cq_total; [eapply dmr_trainable_proper; [exact TR|apply Hv]|exact Hv]].
    destruct (rposterior_weights K T w lens al b g G Ha v A Hv HA Hb Hw) as (C & PC & E).
    pose proof (exp_pos (rjoint g D K T alpha eta tk (put (place lens v) k A))) as P. rewrite (E k Hk) in P.
    apply Rmult_lt_reg_l with C; [exact PC|]. lra.
  Qed.

  (** ** C207 *)
  (** As long as the weights are not updated, sweeps keep the posterior under the
      priors x.w. *)
  Theorem C207_posterior_kept start n : exists mu,
    after K N moves (flat_map (order lens start) (seq 0 n)) post mu /\
    forall mu, after K N moves (flat_map (order lens start) (seq 0 n)) post mu -> forall A, In A A_ -> mu A = post A.
  Proof.
    pose proof TR as (HK & Ha & Hb & Hw & HT & Hs). pose proof (dmr_trainable_proper _ _ _ _ _ _ _ TR) as HP.
    destruct (rchain_exists K T w lens false (fun _ _ => 0%Z) (fun _ => 0%Z) al b special (proj1 HK) (proj2 HK) Hs HP
      (flat_map (order lens start) (seq 0 n)) post (in_orders lens start 0 n)) as (mu & M).
    exists mu. split; [eapply after_iff; [|exact M]; intros; rewrite dmr_iff; reflexivity|].
    intros mu' M' A HA.
    apply (rchain_kept K T w lens false (fun _ _ => 0%Z) (fun _ => 0%Z) al b special (proj1 HK) (proj2 HK) Hs HP post rpost_fits
      (flat_map (order lens start) (seq 0 n))); [apply in_orders| |exact HA].
    eapply after_iff; [|exact M']. intros; apply dmr_iff.
  Qed.
  Theorem C207_forgets_start e : (0 < e)%R ->
    exists n0, forall start n A0 mu, n0 <= n -> In A0 A_ ->
      after K N moves (flat_map (order lens start) (seq 0 n)) (certainly A0) mu -> (apart K N mu post < e)%R.
  Proof.
    intros He. pose proof TR as (HK & Ha & Hb & Hw & HT & Hs). pose proof (dmr_trainable_proper _ _ _ _ _ _ _ TR) as HP.
    destruct (rchain_forgets K T w lens false (fun _ _ => 0%Z) (fun _ => 0%Z) al b special (proj1 HK) (proj2 HK) Hs HP post rpost_fits rq_pos
      (fun A _ => rpost_nonneg A) rpost_total e He) as (n0 & H).
    exists n0. intros start n A0 mu Hn HA AF. apply (H start n A0 mu Hn HA). eapply after_iff; [|exact AF]. intros; apply dmr_iff.
  Qed.
  (** What a stored sample adds to the sums. *)
  Theorem C207_recorded cap g1 s s' d k t : tallied K w lens g1 -> d < D -> k < K -> t < T ->
    dmr_record K T lens b false cap al g1 s = Ok s' ->
    Q2R (d_topic s' d k) = (Q2R (d_topic s d k) + topic_part K (alpha d) tk d k (topics lens g1))%R /\
    Q2R (d_vocab s' k t) = (Q2R (d_vocab s k t) + word_part T eta tk k t (topics lens g1))%R.
  Proof.
    intros (H1 & H2 & H3 & H4) Hd Hk Ht. pose proof TR as (HK & Ha & Hb & Hw & HT & Hs). unfold dmr_record.
    destruct ((cap <=? d_taken s) && negb (length lens =? 0) && negb (K =? 0)); [discriminate|]. intros [= <-]. cbn [d_topic d_vocab].
    rewrite !Q2R_plus. unfold topic_part, word_part.
    assert (ED : vsum K (fun j => Q2R (al d j) + n_doc tk (topics lens g1) d j)%R = Q2R (qnat (len_ lens d) + qsum (al d) (seq 0 K))).
    { rewrite (vsum_plus K (fun j => Q2R (al d j))), Q2R_plus, Q2R_qsum, Rplus_comm. f_equal.
      rewrite (vsum_ext K _ (fun j => Q2R (inject_Z (doc_topic lens (g_z g1) d j)))) by (intros; rewrite (n_doc_topics K) by assumption; symmetry; apply Q2R_inject).
      unfold vsum. rewrite <- Q2R_qsum. apply Qeq_eqR. apply (sum_doc K lens (g_z g1) d H1 Hd). }
    assert (EW : vsum T (fun u => Q2R (b u) + n_word tk (topics lens g1) k u)%R = Q2R (inject_Z (g_k g1 k) + qsum b (seq 0 T))).
    { rewrite (vsum_plus T (fun j => Q2R (b j))), Q2R_plus, Q2R_qsum, Rplus_comm. f_equal.
      rewrite (vsum_ext T _ (fun j => Q2R (inject_Z (topic_word w lens (g_z g1) k j)))) by (intros; rewrite n_word_topics; symmetry; apply Q2R_inject).
      unfold vsum. rewrite <- Q2R_qsum. apply Qeq_eqR. rewrite H4. apply (sum_words (g_z g1) w T lens k Hw). }
    rewrite ED, EW. rewrite !Q2R_div, !Q2R_plus, !Q2R_inject.
    - rewrite (n_doc_topics K) by assumption. rewrite n_word_topics, (H2 d k Hd), (H3 k t). split; f_equal; f_equal; ring.
    - intros Q. pose proof (injZ_nonneg (g_k g1 k)) as P. rewrite H4 in P. specialize (P (count_nonneg _ _)). rewrite <- H4 in P.
      pose proof (qsum_pos_all b T HT Hb) as P2. apply Qeq_eqR in Q. apply Qle_Rle in P. apply Qlt_Rlt in P2.
      rewrite Q2R_plus, RMicromega.Q2R_0 in *. lra.
    - intros Q. pose proof (qnat_nonneg (len_ lens d)) as P. pose proof (qsum_pos_all (al d) K ltac:(lia) (fun j Hj => Ha d j Hd Hj)) as P2.
      apply Qeq_eqR in Q. apply Qle_Rle in P. apply Qlt_Rlt in P2. rewrite Q2R_plus, RMicromega.Q2R_0 in *. lra.
  Qed.
  Theorem C207_averages_converge thin : 0 < thin ->
    exists C, forall start m A0, 0 < m -> In A0 A_ ->
      (forall F, exists x, expects K N moves (rounds lens start thin m) A0 F x) /\
      (forall d k x, d < D -> k < K ->
         let f := topic_part K (alpha d) tk d k in
         expects K N moves (rounds lens start thin m) A0 (fun path => (average f path - mean K N post f) * (average f path - mean K N post f))%R x ->
         (x <= C / INR m)%R) /\
      (forall k t x, k < K -> t < T ->
         let f := word_part T eta tk k t in
         expects K N moves (rounds lens start thin m) A0 (fun path => (average f path - mean K N post f) * (average f path - mean K N post f))%R x ->
         (x <= C / INR m)%R).
  Proof.
    intros Ht. pose proof TR as (HK & Ha & Hb & Hw & HT & Hs). pose proof (dmr_trainable_proper _ _ _ _ _ _ _ TR) as HP.
    destruct (rchain_averages K T w lens false (fun _ _ => 0%Z) (fun _ => 0%Z) al b special (proj1 HK) (proj2 HK) Hs HP post rpost_fits rq_pos
      (fun A _ => rpost_nonneg A) rpost_total thin Ht) as (C & H).
    exists C. intros start m A0 Hm HA. split; [|split].
    - intros F0. destruct (rchain_expects K T w lens false (fun _ _ => 0%Z) (fun _ => 0%Z) al b special (proj1 HK) (proj2 HK) Hs HP start thin m A0 F0) as (x & X0).
      exists x. eapply expects_iff; [|exact X0]. intros; rewrite dmr_iff; reflexivity.
    - intros d k x Hd Hk f X0. apply (H start m A0 f x Hm HA); [|eapply expects_iff; [|exact X0]; intros; apply dmr_iff].
      intros A _. apply (part_range K (fun j => alpha d j + n_doc tk A d j)%R k Hk); [|apply vsum_pos; [lia|]];
        intros j Hj; pose proof (Q2R_pos _ (Ha d j Hd Hj)); pose proof (n_doc_nonneg tk A d j); lra.
    - intros k t x Hk Htt f X0. apply (H start m A0 f x Hm HA); [|eapply expects_iff; [|exact X0]; intros; apply dmr_iff].
      intros A _. apply (part_range T (fun j => eta j + n_word tk A k j)%R t Htt); [|apply vsum_pos; [lia|]];
        intros j Hj; pose proof (Q2R_pos _ (Hb j Hj)); pose proof (n_word_nonneg tk A k j); lra.
  Qed.
End Train.

(** A sweep is one visit to every token, each with the prior of its document. *)
Theorem C207_sweep_is_visits K T w lens b special isQuery start u al sw s :
  dmr_sweep K T w lens b special isQuery start u al sw s =
  fold_left (fun rs vr => do s <- rs; visit K T w (al (fst (fst vr))) b isQuery special (fst (fst vr)) (offset lens (fst (fst vr)) + snd (fst vr)) (snd vr) s)
            (combine (order lens start sw) (draws lens u sw)) (Ok s).
Proof.
  unfold order, draws. rewrite flat_map_combine.
  2:{ intros d _. rewrite !map_length, seq_length, (Permutation_length (visits_perm lens start sw d)), seq_length. reflexivity. }
  unfold dmr_sweep.
  set (V := fun rs vr => do s <- rs; visit K T w (al (fst (fst vr))) b isQuery special (fst (fst vr)) (offset lens (fst (fst vr)) + snd (fst vr)) (snd vr) s).
  set (F := fun d => combine (map (pair d) (visits lens start sw d)) (map (u sw d) (seq 0 (nth d lens 0)))).
  assert (DS : forall d t, doc_sweep K T w lens (al d) b isQuery special start u sw d (offset lens d) t = fold_left V (F d) (Ok t)).
  { intros d t. unfold doc_sweep, F, V. rewrite fold_combine_map.
    - unfold len_. cbn [fst snd]. reflexivity.
    - rewrite (Permutation_length (visits_perm lens start sw d)). reflexivity. }
  assert (VR : forall l e, fold_left V l (Raise e) = Raise e) by (intros l e; apply fold_raise).
  assert (GEN : forall m, fold_left (fun ros d => do os <- ros; do s' <- doc_sweep K T w lens (al d) b isQuery special start u sw d (fst os) (snd os);
            Ok (fst os + len_ lens d, s')) (seq 0 m) (Ok (0, s)) = (do t <- fold_left V (flat_map F (seq 0 m)) (Ok s); Ok (offset lens m, t))).
  { induction m as [|m IH]; [reflexivity|]. rewrite seq_S, fold_left_app, IH, flat_map_app, fold_left_app. cbn [fold_left flat_map Nat.add].
    rewrite app_nil_r. destruct (fold_left V (flat_map F (seq 0 m)) (Ok s)) as [t|e]; cbn [bind fst snd]; [|rewrite VR; reflexivity].
    rewrite DS. destruct (fold_left V (F m) (Ok t)) as [t'|e]; cbn [bind]; [|reflexivity]. rewrite offset_S. reflexivity. }
  rewrite GEN. destruct (fold_left V (flat_map F (seq 0 (length lens))) (Ok s)); reflexivity.
Qed.

(** Refuted: the law is not the one of the model that the weights are fitted for, whose
    priors are exp(x.w).  One token, two topics with the weights 1 and 2. *)
Section OneToken.
  Context (g : R -> R) (G : gamma_like g) (alpha : nat -> vec) (PA : forall k, k < 2 -> (0 < alpha 0%nat k)%R).
  Lemma one_token k : k < 2 ->
    rposterior g 1 2 1 alpha (fun _ => Q2R 1) (corpus_tokens (fun _ => 0) [1]) [k] = (alpha 0%nat k / (alpha 0%nat 0%nat + alpha 0%nat 1%nat))%R.
  Proof.
    intros Hk. unfold rposterior. change (corpus_tokens (fun _ => 0) [1]) with [(0, 0)].
    change (assignments 2 (length [(0, 0)])) with [[0]; [1]]. set (x := rjoint g 1 2 1 alpha (fun _ => Q2R 1) [] []).
    pose proof (PA 0 ltac:(lia)) as P0. pose proof (PA 1 ltac:(lia)) as P1.
    assert (W : forall k, k < 2 -> exp (rjoint g 1 2 1 alpha (fun _ => Q2R 1) [(0, 0)] [k]) = (exp x * (alpha 0%nat k / (alpha 0%nat 0%nat + alpha 0%nat 1%nat)))%R).
    { intros k' Hk'. rewrite (rjoint_cons g 1 2 1 alpha (fun _ => Q2R 1) 0 0 [] k' [] G PA) by (try lia; intros; rewrite RMicromega.Q2R_1; lra).
      change (rjoint g 1 2 1 alpha (fun _ => Q2R 1) [] []) with x. clearbody x. rewrite !exp_plus. specialize (PA k' Hk').
      unfold n_doc, n_word, vsum, rsum. cbn [combine map fold_right seq]. rewrite !RMicromega.Q2R_1, !exp_frac by lra. field. lra. }
    cbn [map]. unfold rsum. cbn [fold_right]. rewrite !W by lia. pose proof (exp_pos x) as PX. generalize dependent (exp x). intros y _ PX.
    replace (y * (alpha 0%nat 0%nat / (alpha 0%nat 0%nat + alpha 0%nat 1%nat)) + (y * (alpha 0%nat 1%nat / (alpha 0%nat 0%nat + alpha 0%nat 1%nat)) + 0))%R with y
      by (field; lra). field. split; lra.
  Qed.
End OneToken.
Definition ot_w : nat -> nat -> Q := fun k _ => if k =? 0 then 1%Q else 2%Q.
Lemma ot_trainable : dmr_trainable 2 1 (fun _ => 0) [1] (dmr_alphas 1 (fun _ _ => 1%Q) ot_w) (fun _ => 1%Q) ex_special.
Proof.
  split; [lia|]. split.
  - intros d [|[|j]] _ Hj; [reflexivity|reflexivity|lia].
  - split; [reflexivity|]. split; [intros; lia|]. split; [lia|]. intros; unfold ex_special; lia.
Qed.
Theorem C207_fitted_model_refuted : forall g, gamma_like g ->
  exists K T F w lens X weights b special start mu A,
    dmr_trainable K T w lens (dmr_alphas F X weights) b special /\
    let fitted := rposterior g (length lens) K T (log_linear F (fun d f => Q2R (X d f)) (fun k f => Q2R (weights k f))) (fun t => Q2R (b t)) (corpus_tokens w lens) in
    after K (total lens) (dmr_moves K T w lens (dmr_alphas F X weights) b special) (order lens start 0) fitted mu /\
    In A (assignments K (total lens)) /\ mu A <> fitted A.
Proof.
  intros g G. set (X := fun _ _ : nat => 1%Q). set (b := fun _ : nat => 1%Q). set (start := fun _ _ : nat => 0).
  set (al := dmr_alphas 1 X ot_w).
  set (fit := rposterior g 1 2 1 (log_linear 1 (fun d f => Q2R (X d f)) (fun k f => Q2R (ot_w k f))) (fun t => Q2R (b t)) (corpus_tokens (fun _ => 0) [1])).
  assert (F0 : fit [0] = (1 / (1 + exp 1))%R).
  { unfold fit, b. rewrite (one_token g G) by (try lia; intros; apply exp_pos). unfold log_linear, X, ot_w, vsum, rsum. cbn [seq map fold_right Nat.eqb].
    replace (Q2R 2) with 2%R by (unfold Q2R; cbn [Qnum Qden]; lra). rewrite RMicromega.Q2R_1, !Rmult_1_l, !Rplus_0_r.
    replace 2%R with (1 + 1)%R by lra. rewrite exp_plus. pose proof (exp_pos 1) as E1. pose proof (Rmult_lt_0_compat _ _ E1 E1). field. repeat split; lra. }
  assert (F1 : fit [1] = (exp 1 / (1 + exp 1))%R).
  { unfold fit, b. rewrite (one_token g G) by (try lia; intros; apply exp_pos). unfold log_linear, X, ot_w, vsum, rsum. cbn [seq map fold_right Nat.eqb].
    replace (Q2R 2) with 2%R by (unfold Q2R; cbn [Qnum Qden]; lra). rewrite RMicromega.Q2R_1, !Rmult_1_l, !Rplus_0_r.
    replace 2%R with (1 + 1)%R by lra. rewrite exp_plus. pose proof (exp_pos 1) as E1. pose proof (Rmult_lt_0_compat _ _ E1 E1). field. repeat split; lra. }
  pose proof ot_trainable as TR. change (dmr_trainable 2 1 (fun _ => 0) [1] al b ex_special) in TR.
  pose proof TR as (HK & Ha & Hb & Hw & HT & Hs). pose proof (dmr_trainable_proper _ _ _ _ _ _ _ TR) as HP.
  assert (V : forall v, In v (order [1] start 0) -> valid [1] v) by (intros; eapply order_valid; eassumption).
  destruct (rchain_exists 2 1 (fun _ => 0) [1] false (fun _ _ => 0%Z) (fun _ => 0%Z) al b ex_special (proj1 HK) (proj2 HK) Hs HP (order [1] start 0) fit V) as (mu & M).
  exists 2, 1, 1, (fun _ => 0), [1], X, ot_w, b, ex_special, start, mu, [0]. fold al. split; [exact TR|].
  cbv zeta. change (length [1]) with 1. fold fit. split; [eapply after_iff; [|exact M]; intros; rewrite dmr_iff; reflexivity|]. split; [left; reflexivity|].
  change (total [1]) with 1 in M.
  rewrite (after_steps 2 1 (place [1]) (rq 2 1 (fun _ => 0) [1] false (fun _ _ => 0%Z) (fun _ => 0%Z) al b) _ _ _ _
    (rchain_share 2 1 (fun _ => 0) [1] false (fun _ _ => 0%Z) (fun _ => 0%Z) al b ex_special (proj1 HK) (proj2 HK) Hs HP _ V) M [0] ltac:(left; reflexivity)).
  change (order [1] start 0) with [(0, 0)]. unfold steps. cbn [fold_left]. unfold step, BoundProofs.total. change (assignments 2 1) with [[0]; [1]].
  cbn [map]. unfold rsum. cbn [fold_right].
  assert (C0 : forall A, In A [[0]; [1]] -> Qeq (cq 1 (fun _ => 0) [1] false (fun _ _ => 0%Z) (fun _ => 0%Z) (al 0) b (0, 0) A 0) 1).
  { intros A [<-|[<-|[]]]; vm_compute; reflexivity. }
  assert (C1 : forall A, In A [[0]; [1]] -> Qeq (cq 1 (fun _ => 0) [1] false (fun _ _ => 0%Z) (fun _ => 0%Z) (al 0) b (0, 0) A 1) 2).
  { intros A [<-|[<-|[]]]; vm_compute; reflexivity. }
  assert (PR : forall A, In A [[0]; [1]] -> prob (place [1]) (rq 2 1 (fun _ => 0) [1] false (fun _ _ => 0%Z) (fun _ => 0%Z) al b) (0, 0) A [0] = (1 / 3)%R).
  { intros A HA. unfold prob. replace (eqa (put (place [1] (0, 0)) (nth (place [1] (0, 0)) [0] 0) A) [0]) with true
      by (destruct HA as [<-|[<-|[]]]; reflexivity).
    change (nth (place [1] (0, 0)) [0] 0) with 0. unfold rq, gq, vsum, rsum. cbn [seq map fold_right fst].
    rewrite (Qeq_eqR _ _ (C0 A HA)), (Qeq_eqR _ _ (C1 A HA)). unfold Q2R. cbn [Qnum Qden]. field. }
  rewrite !PR by (cbn; auto). rewrite F0, F1. pose proof (exp_ineq1 1 ltac:(lra)) as E.
  intros H. assert (1 / 3 * (1 + exp 1) = 1)%R; [|lra].
  replace (1 / (1 + exp 1) * (1 / 3) + (exp 1 / (1 + exp 1) * (1 / 3) + 0))%R with (1 / 3)%R in H by (field; lra). rewrite H. field. lra.
Qed.

(** ** C208 *)
(** What a query is called with: the counts of words it works from. *)
Definition dmr_queryable (K T : nat) (w : nat -> nat) (lens : list nat) (al : nat -> nat -> Q) (b : nat -> Q) (special : gst -> nat -> nat -> Z)
    (kv : nat -> nat -> Z) (k_ : nat -> Z) : Prop :=
  0 < K <= 256 /\ (forall d j, d < length lens -> j < K -> (0 < al d j)%Q) /\ (forall v, v < T -> (0 < b v)%Q) /\
  (forall n, n < total lens -> w n < T) /\ 0 < T /\ (forall s d v, (special s d v < Z.of_nat K)%Z) /\
  (forall j n, j < K -> n < total lens -> (0 <= kv j (w n))%Z) /\ (forall j, j < K -> (0 <= k_ j)%Z).
Lemma dmr_queryable_proper K T w lens al b special kv k_ : dmr_queryable K T w lens al b special kv k_ ->
  forall d, d < length lens -> proper K T w lens kv k_ (al d) b.
Proof.
  intros (HK & Ha & Hb & Hw & HT & _ & H1 & H2) d Hd. split; [intros j Hj; apply Ha; assumption|].
  split; [intros n Hn; apply Qlt_le_weak, Hb, Hw, Hn|]. split; [exact H1|]. split.
  - intros j Hj. split; [apply H2, Hj|]. pose proof (injZ_nonneg _ (H2 j Hj)). pose proof (qsum_pos_all b T HT Hb). Lqa.lra.
  - intros n Hn. exists 0. split; [lia|]. pose proof (injZ_nonneg _ (H1 0 n ltac:(lia) Hn)). pose proof (Hb _ (Hw n Hn)). Lqa.lra.
Qed.

Section Query.
  Context (K T F : nat) (w : nat -> nat) (lens : list nat) (X weights : nat -> nat -> Q) (b : nat -> Q) (special : gst -> nat -> nat -> Z).
  Context (kv : nat -> nat -> Z) (k_ : nat -> Z) (g : R -> R).
  Notation N := (total lens).
  Notation D := (length lens).
  Notation A_ := (assignments K N).
  Notation tk := (corpus_tokens w lens).
  Notation al := (dmr_alphas F X weights).
  Notation alpha := (fun d k => Q2R (al d k)).
  Notation phi := (fun k t => ((IZR (kv k t) + Q2R (b t)) / (IZR (k_ k) + vsum T (fun u => Q2R (b u))))%R).
  Notation post := (rposterior_given g D K alpha phi tk).
  Notation moves := (dmr_query_moves K T w lens al b special kv k_).
  Notation q := (rq K T w lens true kv k_ al b).
  Hypothesis QR : dmr_queryable K T w lens al b special kv k_.
  Hypothesis G : gamma_like g.

  Lemma rphi k t : word_share T b kv k_ k t = phi k t.
  Proof. unfold word_share. rewrite Q2R_qsum. reflexivity. Qed.
  Lemma rgiven_ext A : rgiven g D K alpha phi tk A = rgiven g D K alpha (word_share T b kv k_) tk A.
  Proof.
    unfold rgiven. f_equal. f_equal. apply map_ext. intros [[d t] k]. symmetry. apply rphi.
  Qed.
  Lemma rgiven_fits v : valid lens v -> fits K N (place lens) q post v.
  Proof.
    intros Hv. pose proof QR as (HK & Ha & Hb & Hw & HT & Hs & H1 & H2). pose proof (dmr_queryable_proper _ _ _ _ _ _ _ _ _ QR) as HP.
    apply (fits_weights K T w lens true kv k_ (al (fst v)) b); [apply HP, Hv|exact Hv|].
    intros A HA. destruct (rgiven_weights K T w lens al b g G Ha kv k_ v A Hv HA) as (C & E).
    { intros k Hk. apply (HP (fst v) (proj1 Hv)), Hk. }
    exists (C / rsum (map (rgiven g D K alpha phi tk) (assignments K (length tk))))%R. intros k Hk. unfold rposterior_given.
    rewrite rgiven_ext, (E k Hk). unfold Rdiv. ring.
  Qed.
  Lemma rphi_pos k n : k < K -> n < N -> (0 < phi k (w n))%R.
  Proof.
    intros Hk Hn. pose proof QR as (HK & Ha & Hb & Hw & HT & Hs & H1 & H2). apply Rdiv_lt_0_compat.
    - pose proof (IZR_le _ _ (H1 k n Hk Hn)). pose proof (Q2R_pos _ (Hb _ (Hw n Hn))). lra.
    - pose proof (IZR_le _ _ (H2 k Hk)). assert (0 < vsum T (fun u => Q2R (b u)))%R by (apply vsum_pos; [exact HT|]; intros; apply Q2R_pos; auto). lra.
  Qed.
  Lemma rgiven_pos A : In A A_ -> (0 < rgiven g D K alpha phi tk A)%R.
  Proof.
    intros HA. apply in_assignments in HA as [LA HA]. rewrite Forall_forall in HA. unfold rgiven. apply Rmult_lt_0_compat; [apply exp_pos|].
    assert (P : forall x, In x (combine tk A) -> (0 < (let '((_, t), k) := x in phi k t))%R).
    { intros [[d t] k] H. pose proof (in_combine_l _ _ _ _ H) as HL. pose proof (in_combine_r _ _ _ _ H) as HR.
      unfold corpus_tokens in HL. apply in_flat_map in HL as (d' & Hd' & HL). apply in_map_iff in HL as (n & En & Hn). injection En as _ <-.
      apply rphi_pos; [apply HA, HR|]. apply in_seq in Hd'.
      assert (HN : In n (seq 0 N)) by (rewrite seq_docs; apply in_flat_map; exists d'; split; [apply in_seq; lia|exact Hn]). apply in_seq in HN. lia. }
    induction (combine tk A) as [|x l IH]; [cbn; lra|]. cbn [map fold_right]. apply Rmult_lt_0_compat; [apply P; left; reflexivity|].
    apply IH. intros; apply P; right; assumption.
  Qed.
  Lemma rgiven_total_pos : (0 < rsum (map (rgiven g D K alpha phi tk) (assignments K (length tk))))%R.
  Proof. pose proof QR as (HK & _). rewrite tokens_length. apply rsum_pos_in; [apply assignments_some; lia|]. exact rgiven_pos. Qed.
  Lemma rgiven_total : BoundProofs.total K N post = 1%R.
  Proof.
    pose proof rgiven_total_pos as P. unfold rposterior_given. rewrite tokens_length in P |- *.
    set (W := rgiven g D K alpha phi tk) in *. set (Z := rsum (map W A_)) in *.
    rewrite (total_ext_in K N _ (fun A => / Z * W A)%R) by (intros; unfold Rdiv; ring). rewrite total_scale. apply Rinv_l. apply Rgt_not_eq. exact P.
  Qed.
  Lemma rgiven_nonneg A : In A A_ -> (0 <= post A)%R.
  Proof. intros HA. apply Rle_mult_inv_pos; [left; apply rgiven_pos, HA|apply rgiven_total_pos]. Qed.
  Lemma rgiven_q_pos v A k : valid lens v -> In A A_ -> k < K -> (0 < q v A k)%R.
  Proof.
    intros Hv HA Hk. pose proof QR as (HK & Ha & Hb & Hw & HT & Hs & H1 & H2). pose proof (dmr_queryable_proper _ _ _ _ _ _ _ _ _ QR (fst v) (proj1 Hv)) as HP.
    unfold rq, gq. apply Rdiv_lt_0_compat; [|apply cq_total; [exact HP|exact Hv]]. apply Q2R_pos. unfold cq, cond, conditional_fixed.
    destruct (valid_place lens v Hv) as [Hn _].
    apply Qlt_shift_div_l; [apply HP; exact Hk|]. rewrite Qmult_0_l. apply Qmult_lt_0_compat.
    - match goal with |- (0 < inject_Z ?z + _)%Q => assert (0 <= inject_Z z)%Q by (apply injZ_nonneg, count_nonneg) end. specialize (Ha _ k (proj1 Hv) Hk). Lqa.lra.
    - pose proof (injZ_nonneg _ (H1 k _ Hk Hn)). pose proof (Hb _ (Hw _ Hn)). Lqa.lra.
  Qed.
  Theorem C208_posterior_kept start n : exists mu,
    after K N moves (flat_map (order lens start) (seq 0 n)) post mu /\
    forall mu, after K N moves (flat_map (order lens start) (seq 0 n)) post mu -> forall A, In A A_ -> mu A = post A.
  Proof.
    pose proof QR as (HK & Ha & Hb & Hw & HT & Hs & _). pose proof (dmr_queryable_proper _ _ _ _ _ _ _ _ _ QR) as HP.
    destruct (rchain_exists K T w lens true kv k_ al b special (proj1 HK) (proj2 HK) Hs HP
      (flat_map (order lens start) (seq 0 n)) post (in_orders lens start 0 n)) as (mu & M).
    exists mu. split; [eapply after_iff; [|exact M]; intros; rewrite dmr_query_iff; reflexivity|].
    intros mu' M' A HA.
    apply (rchain_kept K T w lens true kv k_ al b special (proj1 HK) (proj2 HK) Hs HP post rgiven_fits
      (flat_map (order lens start) (seq 0 n))); [apply in_orders| |exact HA].
    eapply after_iff; [|exact M']. intros; apply dmr_query_iff.
  Qed.
  Theorem C208_forgets_start e : (0 < e)%R ->
    exists n0, forall start n A0 mu, n0 <= n -> In A0 A_ ->
      after K N moves (flat_map (order lens start) (seq 0 n)) (certainly A0) mu -> (apart K N mu post < e)%R.
  Proof.
    intros He. pose proof QR as (HK & Ha & Hb & Hw & HT & Hs & _). pose proof (dmr_queryable_proper _ _ _ _ _ _ _ _ _ QR) as HP.
    destruct (rchain_forgets K T w lens true kv k_ al b special (proj1 HK) (proj2 HK) Hs HP post rgiven_fits rgiven_q_pos
      rgiven_nonneg rgiven_total e He) as (n0 & H).
    exists n0. intros start n A0 mu Hn HA AF. apply (H start n A0 mu Hn HA). eapply after_iff; [|exact AF]. intros; apply dmr_query_iff.
  Qed.
  Theorem C208_averages_converge thin : 0 < thin ->
    exists C, forall start m A0, 0 < m -> In A0 A_ ->
      (forall F, exists x, expects K N moves (rounds lens start thin m) A0 F x) /\
      (forall d k x, d < D -> k < K ->
         let f := topic_part K (alpha d) tk d k in
         expects K N moves (rounds lens start thin m) A0 (fun path => (average f path - mean K N post f) * (average f path - mean K N post f))%R x ->
         (x <= C / INR m)%R).
  Proof.
    intros Ht. pose proof QR as (HK & Ha & Hb & Hw & HT & Hs & _). pose proof (dmr_queryable_proper _ _ _ _ _ _ _ _ _ QR) as HP.
    destruct (rchain_averages K T w lens true kv k_ al b special (proj1 HK) (proj2 HK) Hs HP post rgiven_fits rgiven_q_pos
      rgiven_nonneg rgiven_total thin Ht) as (C & H).
    exists C. intros start m A0 Hm HA. split.
    - intros F0. destruct (rchain_expects K T w lens true kv k_ al b special (proj1 HK) (proj2 HK) Hs HP start thin m A0 F0) as (x & X0).
      exists x. eapply expects_iff; [|exact X0]. intros; rewrite dmr_query_iff; reflexivity.
    - intros d k x Hd Hk f X0. apply (H start m A0 f x Hm HA); [|eapply expects_iff; [|exact X0]; intros; apply dmr_query_iff].
      intros A _. apply (part_range K (fun j => alpha d j + n_doc tk A d j)%R k Hk); [|apply vsum_pos; [lia|]];
        intros j Hj; pose proof (Q2R_pos _ (Ha d j Hd Hj)); pose proof (n_doc_nonneg tk A d j); lra.
  Qed.
End Query.

(** The counts a query works from are the model's, scaled, and those of its own first
    assignment; the prior over words comes on top of them. *)
Theorem C208_query_counts K T F w lens X b special r0 r1 p cap weights vocab samples z wd :
  dmr_capacity p = Ok cap -> averaged vocab samples = Some wd -> assigned lens K z ->
  exists s0,
    dmr_query K T F w lens X b special r0 r1 p weights vocab samples z =
      (do s1 <- dmr_sample K T w lens b special true cap (r_start r0) (r_u r0) (dmr_alphas F X weights) (dp_burn p) (Z.to_nat (dp_burn p + 1)) s0;
       do s2 <- dmr_sample K T w lens b special true cap (r_start r1) (r_u r1) (dmr_alphas F X weights) (dp_iterations p) (Z.to_nat (dp_thin p)) s1;
       Ok (mkDr s2 weights (d_taken s2))) /\
    topics lens (d_g s0) = map z (seq 0 (total lens)) /\
    tallied_query K lens (fun k v => truncQ (wd k v * 1000000) + topic_word w lens z k v)%Z
      (fun k => sumZ (map (fun v => truncQ (wd k v * 1000000)) (seq 0 T)) + topic_all lens z k)%Z (d_g s0).
Proof.
  intros EC E Hz. unfold dmr_query. rewrite EC, E. cbn [bind]. eexists. split; [reflexivity|]. cbn [d_g].
  pose proof (query_init K w lens z (fun k v => truncQ (wd k v * 1000000)) (fun k => sumZ (map (fun v => truncQ (wd k v * 1000000)) (seq 0 T))) Hz) as H.
  split; [|exact (proj2 (tallied_query_ok K w lens _ _ _) H)].
  unfold topics. destruct (sum_suff_stats_ok w lens z (fun k v => truncQ (wd k v * 1000000)) (fun k => sumZ (map (fun v => truncQ (wd k v * 1000000)) (seq 0 T)))) as (Ez & _).
  rewrite Ez. reflexivity.
Qed.

Lemma rq_queryable : dmr_queryable 2 2 (fun _ => 0) [1] (dmr_alphas 1 (fun _ _ => 1%Q) (fun _ _ => 1%Q)) (fun _ => 1%Q) ex_special hq_kv hq_k.
Proof.
  assert (KV : forall j, j < 2 -> (0 < hq_kv j 0)%Z) by (intros [|[|j]] Hj; [reflexivity|reflexivity|lia]).
  split; [lia|]. split; [intros d j _ _; reflexivity|]. split; [reflexivity|]. split; [intros; lia|]. split; [lia|]. split; [intros; unfold ex_special; lia|].
  split; [intros j n Hj _; specialize (KV j Hj); lia|]. intros [|[|j]] Hj; [vm_compute; discriminate|vm_compute; discriminate|lia].
Qed.
(** Refuted: the law is not the one given the model's word distributions. *)
Theorem C208_models_words_refuted : forall g, gamma_like g ->
  exists K T F w lens X b special weights vocab samples wd z r0 r1 p cap s0 kv k_ start mu A,
    dmr_capacity p = Ok cap /\
    averaged vocab samples = Some wd /\ (forall k t, k < K -> t < T -> (0 < wd k t)%Q) /\ (forall k, k < K -> (qsum (wd k) (seq 0 T) == 1)%Q) /\
    assigned lens K z /\ dmr_queryable K T w lens (dmr_alphas F X weights) b special kv k_ /\
    dmr_query K T F w lens X b special r0 r1 p weights vocab samples z =
      (do s1 <- dmr_sample K T w lens b special true cap (r_start r0) (r_u r0) (dmr_alphas F X weights) (dp_burn p) (Z.to_nat (dp_burn p + 1)) s0;
       do s2 <- dmr_sample K T w lens b special true cap (r_start r1) (r_u r1) (dmr_alphas F X weights) (dp_iterations p) (Z.to_nat (dp_thin p)) s1;
       Ok (mkDr s2 weights (d_taken s2))) /\
    tallied_query K lens kv k_ (d_g s0) /\
    let model_posterior := rposterior_given g (length lens) K (fun d k => Q2R (dmr_alphas F X weights d k)) (fun k t => Q2R (wd k t)) (corpus_tokens w lens) in
    after K (total lens) (dmr_query_moves K T w lens (dmr_alphas F X weights) b special kv k_) (order lens start 0) model_posterior mu /\
    In A (assignments K (total lens)) /\ mu A <> model_posterior A.
Proof.
  intros g G. set (w := fun _ : nat => 0). set (X := fun _ _ : nat => 1%Q). set (b := fun _ : nat => 1%Q). set (start := fun _ _ : nat => 0).
  set (al := dmr_alphas 1 X X). set (vocab := fun _ _ : nat => (1#2)%Q). set (wd := fun _ _ : nat => ((1#2) / qnat 1)%Q). set (p := mkDp 2 1 1 1).
  assert (EW : averaged vocab 1 = Some wd) by reflexivity.
  assert (EC : dmr_capacity p = Ok 1) by reflexivity.
  assert (Z0 : assigned [1] 2 (fun _ => 0)) by (intros n _; cbn; lia).
  destruct (C208_query_counts 2 2 1 w [1] X b ex_special (ex_u (1#2)) (ex_u (1#2)) p 1 X vocab 1 (fun _ => 0) wd EC EW Z0) as (s0 & Q & _ & TQ).
  change (tallied_query 2 [1] hq_kv hq_k (d_g s0)) in TQ.
  set (mp := rposterior_given g 1 2 (fun d k => Q2R (al d k)) (fun k t => Q2R (wd k t)) (corpus_tokens w [1])).
  assert (HM : forall k, k < 2 -> mp [k] = (1 / 2)%R) by (intros k Hk; apply (hq_half g k G Hk)).
  pose proof rq_queryable as QR. change (dmr_queryable 2 2 w [1] al b ex_special hq_kv hq_k) in QR.
  pose proof QR as (HK & Ha & Hb & Hw & HT & Hs & _). pose proof (dmr_queryable_proper _ _ _ _ _ _ _ _ _ QR) as HP.
  assert (V : forall v, In v (order [1] start 0) -> valid [1] v) by (intros; eapply order_valid; eassumption).
  destruct (rchain_exists 2 2 w [1] true hq_kv hq_k al b ex_special (proj1 HK) (proj2 HK) Hs HP (order [1] start 0) mp V) as (mu & M).
  exists 2, 2, 1, w, [1], X, b, ex_special, X, vocab, 1, wd, (fun _ => 0), (ex_u (1#2)), (ex_u (1#2)), p, 1, s0, hq_kv, hq_k, start, mu, [0].
  split; [exact EC|]. split; [exact EW|]. split; [reflexivity|]. split; [reflexivity|]. split; [exact Z0|]. split; [exact QR|]. split; [exact Q|]. split; [exact TQ|].
  cbv zeta. change (length [1]) with 1. fold al. fold mp. split; [eapply after_iff; [|exact M]; intros; rewrite dmr_query_iff; reflexivity|]. split; [left; reflexivity|].
  change (total [1]) with 1 in M.
  rewrite (after_steps 2 1 (place [1]) (rq 2 2 w [1] true hq_kv hq_k al b) _ _ _ _
    (rchain_share 2 2 w [1] true hq_kv hq_k al b ex_special (proj1 HK) (proj2 HK) Hs HP _ V) M [0] ltac:(left; reflexivity)).
  change (order [1] start 0) with [(0, 0)]. unfold steps. cbn [fold_left]. unfold step, BoundProofs.total. change (assignments 2 1) with [[0]; [1]].
  cbn [map]. unfold rsum. cbn [fold_right]. rewrite !HM by lia.
  assert (C0 : forall A, In A [[0]; [1]] -> Qeq (cq 2 w [1] true hq_kv hq_k (al 0) b (0, 0) A 0) (500002 # 1000003)).
  { intros A [<-|[<-|[]]]; vm_compute; reflexivity. }
  assert (C1 : forall A, In A [[0]; [1]] -> Qeq (cq 2 w [1] true hq_kv hq_k (al 0) b (0, 0) A 1) (1 # 2)).
  { intros A [<-|[<-|[]]]; vm_compute; reflexivity. }
  assert (PR : forall A, In A [[0]; [1]] -> prob (place [1]) (rq 2 2 w [1] true hq_kv hq_k al b) (0, 0) A [0] =
            (500002 / 1000003 / (500002 / 1000003 + 1 / 2))%R).
  { intros A HA. unfold prob. replace (eqa (put (place [1] (0, 0)) (nth (place [1] (0, 0)) [0] 0) A) [0]) with true
      by (destruct HA as [<-|[<-|[]]]; reflexivity).
    change (nth (place [1] (0, 0)) [0] 0) with 0. unfold rq, gq, vsum, rsum. cbn [seq map fold_right fst].
    rewrite (Qeq_eqR _ _ (C0 A HA)), (Qeq_eqR _ _ (C1 A HA)). unfold Q2R. cbn [Qnum Qden]. f_equal; lra. }
  rewrite !PR by (cbn; auto). lra.
Qed.

(** ** Examples *)
(** One token, two topics whose priors are 1 and 2. *)
Example C207_case :
  dmr_trainable 2 1 (fun _ => 0) [1] (dmr_alphas 1 (fun _ _ => 1%Q) ot_w) (fun _ => 1%Q) ex_special /\ gamma_like GammaWitness.lnGamma /\
  rposterior GammaWitness.lnGamma 1 2 1 (fun d k => Q2R (dmr_alphas 1 (fun _ _ => 1%Q) ot_w d k)) (fun _ => Q2R 1) (corpus_tokens (fun _ => 0) [1]) [0] = (1 / 3)%R.
Proof.
  split; [exact ot_trainable|]. split; [exact GammaWitness.lnGamma_rec|].
  assert (E0 : Q2R (dmr_alphas 1 (fun _ _ => 1%Q) ot_w 0 0) = 1%R) by (unfold Q2R; cbn; lra).
  assert (E1 : Q2R (dmr_alphas 1 (fun _ _ => 1%Q) ot_w 0 1) = 2%R) by (unfold Q2R; cbn; lra).
  rewrite (one_token _ GammaWitness.lnGamma_rec).
  - cbv beta. rewrite E0, E1. field.
  - intros [|[|k]] Hk; [rewrite E0; lra|rewrite E1; lra|lia].
  - lia.
Qed.
Example C208_case :
  dmr_queryable 2 2 (fun _ => 0) [1] (dmr_alphas 1 (fun _ _ => 1%Q) (fun _ _ => 1%Q)) (fun _ => 1%Q) ex_special hq_kv hq_k /\
  map (fun k => hq_kv k 0) [0; 1] = [500001%Z; 500000%Z] /\ map hq_k [0; 1] = [1000001%Z; 1000000%Z].
Proof. split; [exact rq_queryable|]. split; reflexivity. Qed.

Print Assumptions C207_posterior_kept.
Print Assumptions C207_forgets_start.
Print Assumptions C207_recorded.
Print Assumptions C207_averages_converge.
Print Assumptions C207_sweep_is_visits.
Print Assumptions C207_fitted_model_refuted.
Print Assumptions C208_posterior_kept.
Print Assumptions C208_forgets_start.
Print Assumptions C208_averages_converge.
Print Assumptions C208_query_counts.
Print Assumptions C208_models_words_refuted.
