(** * C49-C51, C63, C114-C119: variational LDA. *)
From Coq Require Import List Reals ZArith Arith Bool Lra Lia.
From Verif Require Import Base RealModel RealProofs MixModel MixProofs MixProps VbModel VbProofs.
Import ListNotations.
Open Scope nat_scope.

(** ** Counting visits *)
Lemma ok_inj {A} (a b : A) : Ok a = Ok b -> a = b.
Proof. congruence. Qed.
Lemma count_seq d r : count_occ Nat.eq_dec (seq 0 r) d = if d <? r then 1 else 0.
Proof.
  destruct (Nat.ltb_spec d r) as [H|H].
  - apply NoDup_count_occ'; [apply seq_NoDup|apply in_seq; lia].
  - apply count_occ_not_In. rewrite in_seq. lia.
Qed.
Lemma mod_block D q r : 0 < D -> r <= D -> map (fun i => i mod D) (seq (q * D) r) = seq 0 r.
Proof.
  intros HD H. assert (X : forall m c a, seq (c + a) m = map (fun i => c + i) (seq a m)).
  { induction m as [|m IH]; intros c a; [reflexivity|]. cbn [seq map]. f_equal. rewrite <- IH. f_equal. lia. }
  rewrite <- (Nat.add_0_r (q * D)), X, map_map. rewrite <- (map_id (seq 0 r)) at 2. apply map_ext_in.
  intros i Hi. apply in_seq in Hi. rewrite Nat.add_comm, Nat.mod_add by lia. apply Nat.mod_small. lia.
Qed.
Lemma count_mod D q r d : 0 < D -> r <= D -> d < D ->
  count_occ Nat.eq_dec (map (fun i => i mod D) (seq 0 (q * D + r))) d = q + (if d <? r then 1 else 0).
Proof.
  intros HD Hr Hd. rewrite seq_app, map_app, count_occ_app, Nat.add_0_l, mod_block, count_seq by assumption. f_equal.
  induction q as [|q IH]; [reflexivity|]. replace (S q * D) with (q * D + D) by lia.
  rewrite seq_app, map_app, count_occ_app, IH, Nat.add_0_l, mod_block, count_seq by lia.
  rewrite (proj2 (Nat.ltb_lt d D)) by exact Hd. lia.
Qed.
Lemma count_bounds D n d : 0 < D -> d < D ->
  n / D <= count_occ Nat.eq_dec (map (fun i => i mod D) (seq 0 n)) d <= n / D + 1 /\
  (d < n mod D -> count_occ Nat.eq_dec (map (fun i => i mod D) (seq 0 n)) d = n / D + 1).
Proof.
  intros HD Hd. pose proof (Nat.div_mod n D ltac:(lia)) as E. pose proof (Nat.mod_upper_bound n D ltac:(lia)).
  replace (seq 0 n) with (seq 0 (n / D * D + n mod D)) by (f_equal; lia).
  rewrite count_mod by lia. destruct (Nat.ltb_spec d (n mod D)); split; lia.
Qed.

(** ** Steps *)
Lemma kappa_pos b delay forget : (0 < INR b + delay)%R ->
  exists x, kappa_step b delay forget = Ok x /\ (0 < x)%R.
Proof.
  intros H. unfold kappa_step. rewrite (proj2 (rltb_true _ _) H). eexists. split; [reflexivity|apply exp_pos].
Qed.
Lemma kappa_le1 b delay forget x : (1 <= INR b + delay)%R -> (0 <= forget)%R -> kappa_step b delay forget = Ok x -> (x <= 1)%R.
Proof.
  intros H F E. unfold kappa_step in E. rewrite (proj2 (rltb_true _ _)) in E by lra. apply ok_inj in E. subst x.
  unfold Rpower. rewrite <- exp_0. apply exp_le.
  assert (0 <= ln (INR b + delay))%R. { destruct H as [H|<-]; [|rewrite ln_1; lra]. left. rewrite <- ln_1. apply ln_increasing; lra. }
  assert (0 <= forget * ln (INR b + delay))%R by (apply Rmult_le_pos; assumption). lra.
Qed.

Section VbTrain.
  Context (psi : R -> R) (bound : mat -> mat -> R) (K T : nat).
  Context (docs : list words) (docLens prior : vec) (vp : R).
  Let D := length docs.
  Notation train := (train psi bound K T docs docLens prior vp).
  Notation query := (query psi bound K T docs docLens prior vp).

  (** What the documents' parameters must be: the prior plus the tokens. *)
  Definition doc_params (topics : mat) : Prop := forall d, d < D ->
    (forall k, k < K -> (prior k <= topics d k)%R) /\ vsum K (topics d) = (vsum K prior + docLens d)%R.

  Lemma no_empty_docs : corpus T docs docLens -> existsb (fun d => rltb (docLens d) 1) (seq 0 (length docs)) = false.
  Proof.
    intros [_ HL]. destruct (existsb _ _) eqn:E; [|reflexivity]. apply existsb_exists in E as (d & I & H).
    apply in_seq in I. apply rltb_true in H. destruct (HL d ltac:(lia)). lra.
  Qed.

  Lemma train_spec p (W : nat -> mat -> Prop) word topics flag bs bc : 0 < K -> 0 < D -> corpus T docs docLens -> p_rate p <> ROther ->
    batch_sizes docs p = Ok (bs, bc) -> (0 < bs)%Z ->
    (forall b s d means grad log, W b (v_word s) -> grad_of K docs vp (Z.to_nat bs) b grad ->
         exists s', adjust bound T docLens prior p b s d means grad log = Ok s' /\
           v_d s' = d /\ v_means s' = means /\ v_log s' = log /\ W (S b) (v_word s')) ->
    W 0 word ->
    let N := Z.to_nat (bc * p_iterations p) in
    exists word' topics',
      train p word topics flag = Ok (word', topics', map (fun i => i mod D) (seq 0 (N * Z.to_nat bs))) /\
      W N word' /\ (D <= N * Z.to_nat bs -> doc_params topics').
  Proof.
    intros HK HD HC HR EB Hbs HA HW N. unfold VbModel.train, train_state. rewrite no_empty_docs by exact HC.
    rewrite EB. cbn [bind]. rewrite (proj2 (Z.eqb_neq bs 0)) by lia.
    replace (match p_rate p with ROther => true | _ => false end) with false by (destruct (p_rate p); congruence).
    set (s0 := mkV _ _ _ _ _ _ _ _).
    destruct (batches_spec psi bound K T docs docLens prior HK HD HC vp p (Z.to_nat bs) (v_means s0) W HA N 0 s0)
      as (s' & E & A & SM & HW').
    - exact HW.
    - split; reflexivity.
    - intros i. split; [intros []|reflexivity].
    - fold N. rewrite E. cbn [bind]. eexists _, _. split; [f_equal; f_equal; apply A|]. split; [exact HW'|].
      intros HN d Hd. destruct HC as [_ HL]. destruct (HL d Hd) as [_ H1].
      destruct (SM d) as [SM1 _]. destruct SM1 as [P1 P2]; [apply in_mod_seq; assumption|]. unfold means_to_params. split.
      + intros k Hk. specialize (P1 k Hk). assert (0 <= v_means s' d k * docLens d)%R by (apply Rmult_le_pos; lra). lra.
      + rewrite vsum_plus, vsum_scale_r, P2. ring.
  Qed.

  Lemma adjust_log p b s d means grad log s' : adjust bound T docLens prior p b s d means grad log = Ok s' ->
    v_d s' = d /\ v_log s' = log.
  Proof.
    unfold adjust. intros H. destruct (p_rate p).
    - injection H as <-. split; reflexivity.
    - destruct (kappa_step b (p_delay p) (p_forget p)); cbn in H; [|discriminate]. injection H as <-. split; reflexivity.
    - cbn in H. injection H as <-. split; reflexivity.
    - cbn in H. injection H as <-. split; reflexivity.
    - discriminate.
  Qed.

  Lemma batches_log p bs : 0 < K -> 0 < D -> corpus T docs docLens -> forall m b s s',
    at_visit docs (b * bs) (v_d s) (v_log s) ->
    batches psi bound K T docs docLens prior vp p bs m b s = Ok s' -> at_visit docs ((b + m) * bs) (v_d s') (v_log s').
  Proof.
    intros HK HD HC. induction m as [|m IH]; intros b s s' A H.
    - cbn in H. apply ok_inj in H. subst s'. rewrite Nat.add_0_r. exact A.
    - cbn [batches] in H. apply bind_ok in H as (s1 & H1 & H). unfold one_batch in H1. cbv zeta in H1.
      destruct (visits_spec psi bound K T docs docLens prior HK HD HC (v_word s) bs (b * bs) (v_d s) (v_means s) (fun _ _ => vp) (v_log s) A)
        as (d' & means' & grad' & log' & EV & A2 & _).
      rewrite EV in H1. cbn [bind] in H1. apply adjust_log in H1 as [<- <-].
      replace (b + S m) with (S b + m) by lia. apply (IH (S b) s1 s'); [|exact H].
      replace (S b * bs) with (b * bs + bs) by lia. exact A2.
  Qed.

  (** ** C49 *)
  (** The documents are visited in turn, and how many visits there are. *)
  Theorem C49_order : forall p word topics flag word' topics' log, 0 < K -> 0 < D -> corpus T docs docLens ->
    train p word topics flag = Ok (word', topics', log) ->
    exists n, log = map (fun i => i mod D) (seq 0 n) /\
      (p_rate p = RBatch -> n = D * Z.to_nat (p_iterations p)) /\
      (p_rate p <> RBatch -> n = Z.to_nat (p_batch p) * Z.to_nat ((Z.of_nat D / p_batch p + 1) * p_iterations p)).
  Proof.
    intros p word topics flag word' topics' log HK HD HC H. unfold VbModel.train in H. apply bind_ok in H as (s & H & E).
    injection E as _ _ <-. unfold train_state in H. rewrite no_empty_docs in H by exact HC.
    apply bind_ok in H as ([bs bc] & EB & H). destruct (bs =? 0)%Z eqn:E0; [discriminate|].
    destruct (match p_rate p with ROther => true | _ => false end); [discriminate|].
    eapply batches_log in H; [|assumption..|].
    - destruct H as [_ H]. rewrite H. eexists. split; [reflexivity|]. rewrite Nat.add_0_l. unfold batch_sizes in EB. split; intros R0.
      + rewrite R0 in EB. injection EB as <- <-. rewrite Nat2Z.id, Z.mul_1_l, Nat.mul_comm. reflexivity.
      + destruct (p_rate p); [congruence|..]; (destruct (p_batch p =? 0)%Z; [discriminate|]; injection EB as <- <-; rewrite Nat.mul_comm; reflexivity).
    - split; reflexivity.
  Qed.

  (** No document is visited twice more often than another. *)
  Theorem C49_visits_differ_by_at_most_one : forall p word topics flag word' topics' log d d',
    0 < K -> 0 < D -> corpus T docs docLens ->
    train p word topics flag = Ok (word', topics', log) -> d < D -> d' < D ->
    count_occ Nat.eq_dec log d <= S (count_occ Nat.eq_dec log d').
  Proof.
    intros p word topics flag word' topics' log d d' HK HD HC H Hd Hd'.
    destruct (C49_order _ _ _ _ _ _ _ HK HD HC H) as (n & -> & _).
    pose proof (proj1 (count_bounds D n d HD Hd)). pose proof (proj1 (count_bounds D n d' HD Hd')). lia.
  Qed.

  (** An iteration of batch training visits every document exactly once. *)
  Theorem C49_batch_visits_exactly_once : forall p word topics flag word' topics' log d,
    0 < K -> 0 < D -> corpus T docs docLens -> p_rate p = RBatch ->
    train p word topics flag = Ok (word', topics', log) -> d < D ->
    count_occ Nat.eq_dec log d = Z.to_nat (p_iterations p).
  Proof.
    intros p word topics flag word' topics' log d HK HD HC HR H Hd.
    destruct (C49_order _ _ _ _ _ _ _ HK HD HC H) as (n & -> & E & _). rewrite (E HR).
    rewrite <- (Nat.add_0_r (D * _)), (Nat.mul_comm D), count_mod by lia. cbn. lia.
  Qed.

  (** An iteration of mini-batch training visits every document at least once, and at
      least one of them twice. *)
  Theorem C49_minibatch_visits_at_least_once : forall p word topics flag word' topics' log d,
    0 < K -> 0 < D -> corpus T docs docLens -> p_rate p <> RBatch -> (0 < p_batch p)%Z ->
    train p word topics flag = Ok (word', topics', log) -> d < D ->
    Z.to_nat (p_iterations p) <= count_occ Nat.eq_dec log d /\
    ((0 < p_iterations p)%Z -> d = 0 -> Z.to_nat (p_iterations p) < count_occ Nat.eq_dec log d).
  Proof.
    intros p word topics flag word' topics' log d HK HD HC HR HB H Hd.
    destruct (C49_order _ _ _ _ _ _ _ HK HD HC H) as (n & -> & _ & E). specialize (E HR).
    destruct (Z.le_gt_cases (p_iterations p) 0) as [HI|HI]; [split; lia|].
    set (it := Z.to_nat (p_iterations p)) in *.
    assert (HN : it * D + it <= n).
    { subst n. pose proof (Z.div_mod (Z.of_nat D) (p_batch p) ltac:(lia)) as DM.
      pose proof (Z.mod_pos_bound (Z.of_nat D) (p_batch p) HB) as MB.
      apply Nat2Z.inj_le. rewrite Nat2Z.inj_mul, !Z2Nat.id by nia. rewrite Nat2Z.inj_add, Nat2Z.inj_mul.
      unfold it. rewrite Z2Nat.id by lia. nia. }
    pose proof (count_bounds D n d HD Hd) as [B1 B2].
    assert (ND : it <= n / D) by (apply Nat.div_le_lower_bound; lia). split; [lia|].
    intros _ ->. destruct (Nat.eq_dec (n / D) it) as [Q|Q]; [|lia].
    rewrite B2; [lia|]. pose proof (Nat.div_mod n D ltac:(lia)). rewrite Q in H0. lia.
  Qed.

  (** ** C114 *)
  (** Batch training: the topics' parameters are the prior plus the words of the
      corpus, those of a document the prior plus its tokens. *)
  Theorem C114_batch_training_conserves_tokens : forall p word topics flag, 0 < K -> 0 < D -> corpus T docs docLens ->
    p_rate p = RBatch -> (0 < p_iterations p)%Z ->
    exists word' topics' log, train p word topics flag = Ok (word', topics', log) /\ doc_params topics' /\
      (forall k t, k < K -> (vp <= word' k t)%R) /\
      (forall t, vsum K (fun k => word' k t) = (INR K * vp + word_total docs t)%R).
  Proof.
    intros p word topics flag HK HD HC HR HI.
    destruct (train_spec p (fun b w => b = 0 \/ ((forall k t, k < K -> (vp <= w k t)%R) /\
        forall t, vsum K (fun k => w k t) = (INR K * vp + word_total docs t)%R)) word topics flag (Z.of_nat D) 1)
      as (w & tp & E & [HW|HW] & HT); try assumption.
    - congruence.
    - unfold batch_sizes. rewrite HR. reflexivity.
    - lia.
    - intros b s d means grad log _ [G1 G2]. unfold adjust. rewrite HR. eexists. split; [reflexivity|]. cbn.
      split; [reflexivity|]. split; [reflexivity|]. split; [reflexivity|]. right. split; [exact G1|].
      intros t. rewrite G2, Nat2Z.id. rewrite (visited_all K docs HK HD). reflexivity.
    - left. reflexivity.
    - lia.
    - exists w, tp, (map (fun i => i mod D) (seq 0 (Z.to_nat (1 * p_iterations p) * Z.to_nat (Z.of_nat D)))).
      split; [exact E|]. split; [|exact HW]. apply HT. rewrite Nat2Z.id. nia.
  Qed.

  (** The stochastic updates do the same for the documents. *)
  Theorem C114_minibatch_training_conserves_document_tokens : forall p word topics flag,
    0 < K -> 0 < D -> corpus T docs docLens -> p_rate p = RKappa -> (0 < p_delay p)%R ->
    (0 < p_batch p)%Z -> (0 < p_iterations p)%Z ->
    exists word' topics' log, train p word topics flag = Ok (word', topics', log) /\ doc_params topics'.
  Proof.
    intros p word topics flag HK HD HC HR Hd HB HI.
    destruct (train_spec p (fun _ _ => True) word topics flag (p_batch p) (Z.of_nat D / p_batch p + 1)) as (w & tp & E & _ & HT); try assumption.
    - congruence.
    - unfold batch_sizes. rewrite HR. rewrite (proj2 (Z.eqb_neq _ _)) by lia. reflexivity.
    - intros b s d means grad log _ _. unfold adjust. rewrite HR.
      destruct (kappa_pos b (p_delay p) (p_forget p)) as (x & -> & _); [pose proof (pos_INR b); lra|].
      cbn. eexists. split; [reflexivity|]. cbn. auto.
    - exact I.
    - eexists _, _, _. split; [exact E|]. apply HT.
      pose proof (Z.div_mod (Z.of_nat D) (p_batch p) ltac:(lia)) as DM.
      pose proof (Z.mod_pos_bound (Z.of_nat D) (p_batch p) HB) as MB.
      apply Nat2Z.inj_le. rewrite Nat2Z.inj_mul, !Z2Nat.id by nia. nia.
  Qed.

  (** What wordDists and topicDists report. *)
  Theorem C114_reported_distributions : forall n (m : mat) i, 0 < n -> (forall j, j < n -> (0 < m i j)%R) ->
    (forall j, j < n -> (0 < norm_rows n m i j)%R) /\ vsum n (norm_rows n m i) = 1%R.
  Proof.
    intros n m i Hn H. pose proof (vsum_pos n (m i) Hn H) as P. unfold norm_rows. split.
    - intros j Hj. apply Rdiv_lt_0_compat; [apply H, Hj|exact P].
    - unfold Rdiv. rewrite vsum_scale_r. field. lra.
  Qed.

  (** ** C50: a query replaces the topics by those of the query documents. *)
  Theorem C50_query_learns_the_query : forall p word topics, 0 < K -> 0 < D -> corpus T docs docLens ->
    p_rate p = RBatch -> (0 < p_iterations p)%Z ->
    exists word' topics', query p word topics = Ok (word', topics') /\ doc_params topics' /\
      (forall k t, k < K -> (vp <= word' k t)%R) /\
      (forall t, vsum K (fun k => word' k t) = (INR K * vp + word_total docs t)%R).
  Proof.
    intros p word topics HK HD HC HR HI.
    destruct (C114_batch_training_conserves_tokens p word topics false HK HD HC HR HI) as (w & tp & log & E & H).
    exists w, tp. split; [|exact H]. unfold VbModel.query. rewrite E. reflexivity.
  Qed.

  (** The argument that should protect the topics is not read. *)
  Theorem C50_update_flag_ignored : forall p word topics, train p word topics true = train p word topics false.
  Proof. reflexivity. Qed.

  (** ** C115 *)
  Lemma mix_pos (x o g : R) : (0 < x <= 1)%R -> (0 < o)%R -> (0 < g)%R -> (0 < o * (1 - x) + g * x)%R.
  Proof.
    intros Hx Ho Hg. assert (0 <= o * (1 - x))%R by (apply Rmult_le_pos; lra).
    assert (0 < g * x)%R by (apply Rmult_lt_0_compat; lra). lra.
  Qed.

  Theorem C115_parameters_stay_positive : forall p word topics flag,
    0 < K -> 0 < D -> corpus T docs docLens -> p_rate p = RKappa -> (1 <= p_delay p)%R -> (0 <= p_forget p)%R ->
    (0 < p_batch p)%Z -> (0 < vp)%R -> (forall k t, k < K -> (0 < word k t)%R) ->
    exists word' topics' log, train p word topics flag = Ok (word', topics', log) /\
      forall k t, k < K -> (0 < word' k t)%R.
  Proof.
    intros p word topics flag HK HD HC HR Hd Hf HB Hv HW.
    destruct (train_spec p (fun _ w => forall k t, k < K -> (0 < w k t)%R) word topics flag (p_batch p) (Z.of_nat D / p_batch p + 1)) as (w & tp & E & HW' & _); try assumption.
    - congruence.
    - unfold batch_sizes. rewrite HR. rewrite (proj2 (Z.eqb_neq _ _)) by lia. reflexivity.
    - intros b s d means grad log HWs [G1 _]. unfold adjust. rewrite HR. pose proof (pos_INR b) as PB.
      destruct (kappa_pos b (p_delay p) (p_forget p)) as (x & Ex & Px); [lra|].
      pose proof (kappa_le1 b (p_delay p) (p_forget p) x ltac:(lra) Hf Ex) as L1.
      rewrite Ex. cbn. eexists. split; [reflexivity|]. cbn. repeat split. intros k t Hk.
      apply mix_pos; [lra|apply HWs, Hk|]. specialize (G1 k t Hk). lra.
    - eexists _, _, _. split; [exact E|exact HW'].
  Qed.

  (** Also with the default delay, below one, if the model is new: its topics are
      distributions and the prior is at least one. *)
  Theorem C115_new_models_stay_positive : forall p word topics flag,
    0 < K -> 0 < D -> corpus T docs docLens -> p_rate p = RKappa -> (0 < p_delay p)%R -> (0 <= p_forget p)%R ->
    (0 < p_batch p)%Z -> (1 <= vp)%R -> (forall k t, k < K -> (0 < word k t <= 1)%R) ->
    exists word' topics' log, train p word topics flag = Ok (word', topics', log) /\
      forall k t, k < K -> (0 < word' k t)%R.
  Proof.
    intros p word topics flag HK HD HC HR Hd Hf HB Hv HW.
    destruct (train_spec p (fun b w => forall k t, k < K -> (0 < w k t)%R /\ (b = 0 -> (w k t <= 1)%R)) word topics flag (p_batch p) (Z.of_nat D / p_batch p + 1)) as (w & tp & E & HW' & _); try assumption.
    - congruence.
    - unfold batch_sizes. rewrite HR. rewrite (proj2 (Z.eqb_neq _ _)) by lia. reflexivity.
    - intros b s d means grad log HWs [G1 _]. unfold adjust. rewrite HR. pose proof (pos_INR b) as PB.
      destruct (kappa_pos b (p_delay p) (p_forget p)) as (x & Ex & Px); [lra|].
      rewrite Ex. cbn. eexists. split; [reflexivity|]. cbn. do 3 (split; [reflexivity|]). intros k t Hk. split; [|discriminate].
      specialize (G1 k t Hk). destruct (HWs k t Hk) as [W1 W2]. destruct (Rle_dec x 1) as [L1|L1].
      + apply mix_pos; lra.
      + destruct b as [|b]; [|exfalso; apply L1; eapply kappa_le1; [|exact Hf|exact Ex]; rewrite S_INR; pose proof (pos_INR b); lra].
        specialize (W2 eq_refl). assert (0 <= (x - 1) * (1 - v_word s k t))%R by (apply Rmult_le_pos; lra).
        assert (0 <= x * (grad k t - 1))%R by (apply Rmult_le_pos; lra). lra.
    - intros k t Hk. split; [apply HW, Hk|intros _; apply HW, Hk].
    - eexists _, _, _. split; [exact E|]. intros k t Hk. apply HW', Hk.
  Qed.

  (** ** C116 *)
  Definition total_weight (w : mat) : R := vsum T (fun t => vsum K (fun k => w k t)).

  Lemma visited_tokens L n m : 0 < D -> corpus T docs docLens -> (forall d, d < D -> (docLens d <= L)%R) ->
    (vsum T (visited_words docs n m) <= INR m * L)%R.
  Proof.
    intros HD HC HL. unfold visited_words, vsum. rewrite (rsum_swap (fun t i => count (nth (i mod D) docs []) t)).
    fold D. destruct HC as [HF HT]. rewrite <- (seq_length m n) at 2. generalize (seq n m) as l. induction l as [|i l IH]; [cbn; lra|].
    cbn [map rsum length]. rewrite S_INR. assert (Hi : i mod D < D) by (apply Nat.mod_upper_bound; lia).
    change (rsum (map (fun a => count (nth (i mod D) docs []) a) (seq 0 T))) with (vsum T (count (nth (i mod D) docs []))).
    rewrite count_tokens.
    - destruct (HT _ Hi) as [ET _]. rewrite <- ET. specialize (HL _ Hi). lra.
    - rewrite Forall_forall in HF. destruct (HF (nth (i mod D) docs [])) as [_ F]; [apply nth_In; exact Hi|].
      eapply Forall_impl; [|exact F]. intros e He. apply He.
  Qed.

  (** The weight of the topics never grows beyond that of one batch. *)
  Theorem C116_weight_of_a_batch : forall p word topics flag L,
    0 < K -> 0 < D -> corpus T docs docLens -> p_rate p = RKappa -> (1 <= p_delay p)%R -> (0 <= p_forget p)%R ->
    (0 < p_batch p)%Z -> (forall d, d < D -> (docLens d <= L)%R) ->
    (total_weight word <= INR K * INR T * vp + IZR (p_batch p) * L)%R ->
    exists word' topics' log, train p word topics flag = Ok (word', topics', log) /\
      (total_weight word' <= INR K * INR T * vp + IZR (p_batch p) * L)%R.
  Proof.
    intros p word topics flag L HK HD HC HR Hd Hf HB HL HW.
    destruct (train_spec p (fun _ w => total_weight w <= INR K * INR T * vp + IZR (p_batch p) * L)%R word topics flag (p_batch p) (Z.of_nat D / p_batch p + 1)) as (w & tp & E & HW' & _); try assumption.
    - congruence.
    - unfold batch_sizes. rewrite HR. rewrite (proj2 (Z.eqb_neq _ _)) by lia. reflexivity.
    - intros b s d means grad log HWs [_ G2]. unfold adjust. rewrite HR. pose proof (pos_INR b) as PB.
      destruct (kappa_pos b (p_delay p) (p_forget p)) as (x & Ex & Px); [lra|].
      pose proof (kappa_le1 b (p_delay p) (p_forget p) x ltac:(lra) Hf Ex) as L1.
      rewrite Ex. cbn. eexists. split; [reflexivity|]. cbn. do 3 (split; [reflexivity|]).
      assert (EW : total_weight (fun k t => v_word s k t * (1 - x) + grad k t * x)%R = (total_weight (v_word s) * (1 - x) + total_weight grad * x)%R).
      { unfold total_weight. rewrite <- !vsum_scale_r, <- vsum_plus. apply vsum_ext. intros t _.
        rewrite <- !vsum_scale_r, <- vsum_plus. reflexivity. }
      rewrite EW.
      assert (EG : (total_weight grad <= INR K * INR T * vp + IZR (p_batch p) * L)%R).
      { unfold total_weight. rewrite (vsum_ext T _ (fun t => INR K * vp + visited_words docs (b * Z.to_nat (p_batch p)) (Z.to_nat (p_batch p)) t)%R) by (intros; apply G2).
        rewrite vsum_plus, vsum_const. pose proof (visited_tokens L (b * Z.to_nat (p_batch p)) (Z.to_nat (p_batch p)) HD HC HL) as VT.
        rewrite INR_IZR_INZ in VT at 1. rewrite Z2Nat.id in VT by lia. lra. }
      set (M := (INR K * INR T * vp + IZR (p_batch p) * L)%R) in *.
      assert (0 <= (M - total_weight (v_word s)) * (1 - x))%R by (apply Rmult_le_pos; lra).
      assert (0 <= (M - total_weight grad) * x)%R by (apply Rmult_le_pos; lra). lra.
    - eexists _, _, _. split; [exact E|exact HW'].
  Qed.

  (** ** C117 *)
  Theorem C117_stochastic_rates_need_a_batch_size : forall it dl fg a b r word topics flag,
    corpus T docs docLens -> r <> RBatch ->
    train (new_plan it 0 dl fg a b r) word topics flag = Raise ZeroDivisionError.
  Proof.
    intros it dl fg a b r word topics flag HC HR. unfold VbModel.train, train_state. rewrite no_empty_docs by exact HC.
    unfold batch_sizes, new_plan. cbn. destruct r; [congruence|..]; reflexivity.
  Qed.
End VbTrain.

Theorem C117_batch_size_selects_kappa : forall it bs dl fg a b r, (0 < bs)%Z ->
  new_plan it bs dl fg a b r = new_plan it bs dl fg a b RKappa.
Proof. intros it bs dl fg a b r H. unfold new_plan. rewrite (proj2 (Z.ltb_lt _ _) H). reflexivity. Qed.
Theorem C117_requested_rate_refuted : exists it bs r, (0 < bs)%Z /\
  r <> RBatch /\ p_rate (new_plan it bs (6/10) (6/10) 2 (5/10) r) <> r.
Proof. exists 10%Z, 5%Z, RAmari. cbn. split; [lia|]. split; discriminate. Qed.

(** ** C51 *)
Theorem C51_params_to_means_and_back : forall docLens m prior d k, docLens d <> 0%R ->
  means_to_params docLens (params_to_means docLens m prior) prior d k = m d k.
Proof. intros. unfold means_to_params, params_to_means. field. assumption. Qed.
Theorem C51_means_to_params_and_back : forall docLens m prior d k, docLens d <> 0%R ->
  params_to_means docLens (means_to_params docLens m prior) prior d k = m d k.
Proof. intros. unfold means_to_params, params_to_means. field. assumption. Qed.
Theorem C51_means_are_distributions : forall K docLens m prior d, (0 < docLens d)%R ->
  (forall k, k < K -> (prior k <= m d k)%R) -> vsum K (m d) = (vsum K prior + docLens d)%R ->
  proper K (params_to_means docLens m prior d).
Proof.
  intros K docLens m prior d H P E. unfold params_to_means. split.
  - intros k Hk. specialize (P k Hk). apply Rmult_le_pos; [lra|left; apply Rinv_0_lt_compat, H].
  - unfold Rdiv. rewrite vsum_scale_r. replace (vsum K _) with (docLens d); [field; lra|].
    transitivity (vsum K (fun k => m d k + -1 * prior k)%R); [rewrite vsum_plus, vsum_scale, E; ring|].
    apply vsum_ext. intros. ring.
Qed.
Theorem C51_params_of_distributions : forall K docLens m prior d, (0 <= docLens d)%R ->
  proper K (m d) -> (forall k, k < K -> (prior k <= means_to_params docLens m prior d k)%R) /\
  vsum K (means_to_params docLens m prior d) = (vsum K prior + docLens d)%R.
Proof.
  intros K docLens m prior d H [P E]. unfold means_to_params. split.
  - intros k Hk. assert (0 <= m d k * docLens d)%R by (apply Rmult_le_pos; [apply P, Hk|exact H]). lra.
  - rewrite vsum_plus, vsum_scale_r, E. ring.
Qed.

(** ** C63 *)
Theorem C63_steps_keep_distributions : forall n step old change k, (0 <= step k <= 1)%R ->
  proper n (old k) -> proper n (change k) -> proper n (fst (update_v step old change) k).
Proof.
  intros n step old change k H [P1 E1] [P2 E2]. cbn. split.
  - intros i Hi. specialize (P1 i Hi). specialize (P2 i Hi).
    assert (0 <= old k i * (1 - step k))%R by (apply Rmult_le_pos; lra).
    assert (0 <= change k i * step k)%R by (apply Rmult_le_pos; lra). lra.
  - rewrite vsum_plus, !vsum_scale_r, E1, E2. ring.
Qed.
(** A step of one replaces, a step of zero keeps the old value. *)
Theorem C63_extreme_steps : forall step old change k t,
  (step k = 0%R -> fst (update_v step old change) k t = old k t) /\
  (step k = 1%R -> fst (update_v step old change) k t = change k t) /\
  fst (update_s step (fun k => old k t) (fun k => change k t)) k = fst (update_v step old change) k t.
Proof. intros. cbn. split; [|split]; [intros ->; ring..|reflexivity]. Qed.
Theorem C63_kappa_steps : forall b delay forget, (1 <= INR b + delay)%R -> (0 <= forget)%R ->
  exists x y, kappa_step b delay forget = Ok x /\ kappa_step (S b) delay forget = Ok y /\ (0 < y <= x)%R /\ (x <= 1)%R.
Proof.
  intros b delay forget H F.
  destruct (kappa_pos b delay forget ltac:(lra)) as (x & Ex & Px).
  destruct (kappa_pos (S b) delay forget) as (y & Ey & Py); [rewrite S_INR; lra|].
  exists x, y. split; [exact Ex|]. split; [exact Ey|]. split; [split; [exact Py|]|eapply kappa_le1; eassumption].
  unfold kappa_step in Ex, Ey. rewrite (proj2 (rltb_true _ _)) in Ex by lra.
  rewrite (proj2 (rltb_true _ _)) in Ey by (rewrite S_INR; lra). apply ok_inj in Ex, Ey. subst x y.
  unfold Rpower. apply exp_le. assert (ln (INR b + delay) <= ln (INR (S b) + delay))%R.
  { left. apply ln_increasing; [lra|]. rewrite S_INR. lra. }
  assert (0 <= forget * (ln (INR (S b) + delay) - ln (INR b + delay)))%R by (apply Rmult_le_pos; lra). lra.
Qed.
(** All but the first step with the default delay. *)
Theorem C63_default_steps : forall b, 1 <= b -> exists x, kappa_step b (6/10) (6/10) = Ok x /\ (0 < x <= 1)%R.
Proof.
  intros b H. apply le_INR in H. change (INR 1) with 1%R in H.
  destruct (C63_kappa_steps b (6/10) (6/10)) as (x & y & E & _ & ? & ?); [lra|lra|]. exists x. split; [exact E|lra].
Qed.
Lemma default_first_step : exists x, kappa_step 0 (6/10) (6/10) = Ok x /\ (124/100 <= x <= 3)%R.
Proof.
  unfold kappa_step. cbn [INR]. rewrite (proj2 (rltb_true _ _)) by lra. eexists. split; [reflexivity|].
  unfold Rpower. replace (0 + 6/10)%R with (6/10)%R by ring.
  pose proof (ln_le_sub1 (6/10) ltac:(lra)) as A.
  pose proof (ln_le_sub1 (/ (6/10)) ltac:(lra)) as B. rewrite ln_Rinv in B by lra. split.
  - eapply Rle_trans; [|apply exp_ge_1_plus]. lra.
  - eapply Rle_trans; [|apply exp_le_3]. apply exp_le. lra.
Qed.
(** The first step of the default plan is greater than one. *)
Theorem C63_default_first_step_refuted : exists x,
  kappa_step 0 (p_delay (default_plan 100 10)) (p_forget (default_plan 100 10)) = Ok x /\ (1 < x)%R.
Proof. destruct default_first_step as (x & E & H). exists x. split; [exact E|lra]. Qed.

(** ** The first batch, when it is larger than the corpus *)
Section First.
  Context (psi : R -> R) (bound : mat -> mat -> R) (K T : nat).
  Context (docs : list words) (docLens prior : vec) (vp : R).

  Lemma first_batch p word topics : 0 < K -> 0 < length docs -> corpus T docs docLens ->
    p_rate p <> RBatch -> p_rate p <> ROther -> (Z.of_nat (length docs) < p_batch p)%Z -> p_iterations p = 1%Z ->
    exists d means grad log,
      train_state psi bound K T docs docLens prior vp p word topics =
        adjust bound T docLens prior p 0
          (mkV (-1) (params_to_means docLens topics prior) word (fun _ => 1%R) (fun _ => (1 / IZR (p_batch p))%R) (fun _ _ => 0%R) (fun _ => 0%R) [])
          d means grad log /\
      (forall k t, k < K -> (vp <= grad k t)%R) /\ (forall d, d < length docs -> proper K (means d)).
  Proof.
    intros HK HD HC R1 R2 HB HI. unfold train_state. rewrite (no_empty_docs psi T docs docLens vp HC).
    replace (batch_sizes docs p) with (@Ok (Z * Z) (p_batch p, 1)%Z).
    2:{ unfold batch_sizes. rewrite (proj2 (Z.eqb_neq (p_batch p) 0)) by lia. rewrite Z.div_small by lia. destruct (p_rate p); first [congruence | reflexivity]. }
    cbn [bind]. rewrite (proj2 (Z.eqb_neq (p_batch p) 0)) by lia.
    replace (match p_rate p with ROther => true | _ => false end) with false by (destruct (p_rate p); congruence).
    rewrite HI. change (Z.to_nat (1 * 1)) with 1. set (s0 := mkV _ _ _ _ _ _ _ _). cbn [batches]. unfold one_batch. cbv zeta.
    destruct (visits_spec psi bound K T docs docLens prior HK HD HC word (Z.to_nat (p_batch p)) 0 (-1)%Z
                (params_to_means docLens topics prior) (fun _ _ => vp) [])
      as (d' & means' & grad' & log' & EV & A2 & G & Gle & M); [split; reflexivity|].
    change (v_word s0) with word. change (v_d s0) with (-1)%Z. change (v_means s0) with (params_to_means docLens topics prior).
    change (v_log s0) with (@nil nat). rewrite EV. cbn [bind]. exists d', means', grad', log'. split; [|split].
    - destruct (adjust bound T docLens prior p 0 s0 d' means' grad' log'); reflexivity.
    - exact Gle.
    - intros d Hd. apply M. apply in_mod_seq; lia.
  Qed.

  (** The first step of the variance-based rate is the size of the batch. *)
  Theorem C63_variance_first_step : forall p word topics, 0 < K -> 0 < T -> 0 < length docs -> corpus T docs docLens ->
    p_rate p = RVariance -> (Z.of_nat (length docs) < p_batch p)%Z -> p_iterations p = 1%Z -> (0 < vp)%R ->
    exists s, train_state psi bound K T docs docLens prior vp p word topics = Ok s /\
      forall k, k < K -> v_step s k = IZR (p_batch p).
  Proof.
    intros p word topics HK HT HD HC HR HB HI HV.
    destruct (first_batch p word topics HK HD HC ltac:(congruence) ltac:(congruence) HB HI) as (d & means & grad & log & -> & G & _).
    unfold adjust. rewrite HR. cbn. eexists. split; [reflexivity|]. intros k Hk. cbn.
    assert (PB : (0 < IZR (p_batch p))%R) by (apply IZR_lt; lia).
    set (g := (1 / IZR (p_batch p))%R). assert (Pg : (0 < g)%R) by (apply Rdiv_lt_0_compat; lra).
    set (q := vsum T (fun t => grad k t * g * (grad k t * g))%R).
    assert (Pq : (0 < q)%R).
    { apply vsum_pos; [exact HT|]. intros t _. specialize (G k t Hk). apply Rmult_lt_0_compat; apply Rmult_lt_0_compat; lra. }
    replace (vsum T _) with q; [|apply vsum_ext; intros; ring].
    replace (0 * (1 - g) + q * g)%R with (q * g)%R by ring. unfold g. field. lra.
  Qed.

  (** With the Amari rate, documents end with parameters that are not the prior plus
      their tokens: the conversion that should be undone is repeated. *)
  Theorem C114_amari_parameters : forall p word topics flag, 0 < K -> 0 < length docs -> corpus T docs docLens ->
    p_rate p = RAmari -> (Z.of_nat (length docs) < p_batch p)%Z -> p_iterations p = 1%Z ->
    exists word' topics' log, train psi bound K T docs docLens prior vp p word topics flag = Ok (word', topics', log) /\
      forall d, d < length docs -> vsum K (topics' d) =
        (vsum K prior + docLens d + (docLens d + docLens d * docLens d) * (vsum K prior + docLens d - 1))%R.
  Proof.
    intros p word topics flag HK HD HC HR HB HI. unfold train.
    destruct (first_batch p word topics HK HD HC ltac:(congruence) ltac:(congruence) HB HI) as (d & means & grad & log & -> & _ & M).
    unfold adjust. rewrite HR. cbn. do 3 eexists. split; [reflexivity|]. intros i Hi. unfold means_to_params.
    destruct (M i Hi) as [_ E]. repeat rewrite ?vsum_plus, ?vsum_scale_r. rewrite E. ring.
  Qed.
End First.

(** ** Witnesses *)
Definition id_psi (x : R) : R := x.
Definition low (_ _ : mat) : R := (-10)%R.
Definition tiny_docs : list words := [[(0, 1%R)]].
Lemma tiny_corpus : corpus 2 tiny_docs (doc_lens tiny_docs).
Proof.
  split.
  - constructor; [|constructor]. split; [constructor; [intros []|constructor]|]. constructor; [cbn; split; [lia|lra]|constructor].
  - intros d H. cbn in H. replace d with 0 by lia. split; [reflexivity|]. cbn. lra.
Qed.

Theorem C50_model_unchanged_refuted : exists psi bound K T docs docLens prior vp p word topics word' topics' k t,
  corpus T docs docLens /\ query psi bound K T docs docLens prior vp p word topics = Ok (word', topics') /\
  k < K /\ t < T /\ word' k t <> word k t.
Proof.
  exists id_psi, low, 2, 2, tiny_docs, (doc_lens tiny_docs), (fun _ => 1%R), (11/10)%R, (default_plan 5 0), (fun _ _ => 1%R), (fun _ _ => 1%R).
  destruct (C50_query_learns_the_query id_psi low 2 2 tiny_docs (doc_lens tiny_docs) (fun _ => 1%R) (11/10) (default_plan 5 0) (fun _ _ => 1%R) (fun _ _ => 1%R))
    as (w & tp & E & _ & _ & S); [lia|cbn; lia|apply tiny_corpus|reflexivity|cbn; lia|].
  exists w, tp. specialize (S 0). unfold vsum, word_total, count in S. cbn in S.
  destruct (Req_dec (w 0 0) 1) as [A|A]; [exists 1, 0|exists 0, 0];
    (split; [apply tiny_corpus|]; split; [exact E|]; split; [lia|]; split; [lia|]; lra || (intros B; lra)).
Qed.

Theorem C63_variance_step_refuted : exists psi bound K T docs docLens prior vp p word topics s k,
  corpus T docs docLens /\ p_rate p = RVariance /\ k < K /\
  train_state psi bound K T docs docLens prior vp p word topics = Ok s /\ (1 < v_step s k)%R.
Proof.
  set (p := mkPlan 1 5 (6/10) (6/10) 2 (5/10) RVariance).
  destruct (C63_variance_first_step id_psi low 2 2 tiny_docs (doc_lens tiny_docs) (fun _ => 1%R) (11/10) p (fun _ _ => 1%R) (fun _ _ => 1%R))
    as (s & E & H); [lia|lia|cbn; lia|apply tiny_corpus|reflexivity|cbn; lia|reflexivity|lra|].
  exists id_psi, low, 2, 2, tiny_docs, (doc_lens tiny_docs), (fun _ => 1%R), (11/10)%R, p, (fun _ _ => 1%R), (fun _ _ => 1%R), s, 0.
  split; [apply tiny_corpus|]. split; [reflexivity|]. split; [lia|]. split; [exact E|]. rewrite H by lia. cbn. lra.
Qed.

Theorem C63_amari_step_refuted : exists psi bound K T docs docLens prior vp p word topics s k,
  corpus T docs docLens /\ p_rate p = RAmari /\ p_a p = 2%R /\ p_b p = (5/10)%R /\ k < K /\
  train_state psi bound K T docs docLens prior vp p word topics = Ok s /\ (1 < v_step s k)%R.
Proof.
  set (p := mkPlan 1 5 (6/10) (6/10) 2 (5/10) RAmari).
  destruct (first_batch id_psi low 2 2 tiny_docs (doc_lens tiny_docs) (fun _ => 1%R) (11/10) p (fun _ _ => 1%R) (fun _ _ => 1%R))
    as (d & means & grad & log & E & _); [lia|cbn; lia|apply tiny_corpus|discriminate|discriminate|cbn; lia|reflexivity|].
  unfold adjust in E. cbn in E.
  exists id_psi, low, 2, 2, tiny_docs, (doc_lens tiny_docs), (fun _ => 1%R), (11/10)%R, p, (fun _ _ => 1%R), (fun _ _ => 1%R). eexists. exists 0.
  split; [apply tiny_corpus|]. do 3 (split; [reflexivity|]). split; [lia|]. split; [exact E|]. cbn. unfold low.
  pose proof (exp_ge_1_plus (2 * (5 / 10 * - -10 - 1))). lra.
Qed.

Theorem C114_amari_refuted : exists psi bound K T docs docLens prior vp p word topics word' topics' log,
  corpus T docs docLens /\ p_rate p = RAmari /\
  train psi bound K T docs docLens prior vp p word topics true = Ok (word', topics', log) /\
  ~ doc_params K docs docLens prior topics'.
Proof.
  set (p := mkPlan 1 5 (6/10) (6/10) 2 (5/10) RAmari).
  destruct (C114_amari_parameters id_psi low 2 2 tiny_docs (doc_lens tiny_docs) (fun _ => 1%R) (11/10) p (fun _ _ => 1%R) (fun _ _ => 1%R) true)
    as (w & tp & log & E & H); [lia|cbn; lia|apply tiny_corpus|reflexivity|cbn; lia|reflexivity|].
  exists id_psi, low, 2, 2, tiny_docs, (doc_lens tiny_docs), (fun _ => 1%R), (11/10)%R, p, (fun _ _ => 1%R), (fun _ _ => 1%R), w, tp, log.
  split; [apply tiny_corpus|]. split; [reflexivity|]. split; [exact E|]. intros X.
  destruct (X 0) as [_ X2]; [cbn; lia|]. rewrite H in X2 by (cbn; lia). unfold vsum in X2. cbn in X2. lra.
Qed.

(** Training or querying a trained model by the default stochastic plan can make
    Dirichlet parameters negative. *)
Theorem C115_trained_models_refuted : exists psi bound K T docs docLens prior vp word topics word' topics' k t,
  corpus T docs docLens /\ (0 < vp)%R /\ (forall k t, (0 < word k t)%R) /\
  query psi bound K T docs docLens prior vp (default_plan 1 10) word topics = Ok (word', topics') /\
  k < K /\ t < T /\ (word' k t < 0)%R.
Proof.
  destruct (train_spec id_psi low 2 2 tiny_docs (doc_lens tiny_docs) (fun _ => 1%R) (11/10) (default_plan 1 10)
    (fun b w => match b with 0 => w 0 1 = 20%R | 1 => (w 0%nat 1%nat < 0)%R | _ => True end) (fun _ _ => 20%R) (fun _ _ => 1%R) false 10 1)
    as (w & tp & E & HW & _); [lia|cbn; lia|apply tiny_corpus|discriminate|reflexivity|lia| |reflexivity|].
  - intros b s d means grad log HWs [G1 G2]. unfold adjust. cbn.
    destruct b as [|b].
    + destruct default_first_step as (x & Ex & Hx). rewrite Ex. cbn. eexists. split; [reflexivity|]. cbn.
      do 3 (split; [reflexivity|]). rewrite HWs. specialize (G2 1). pose proof (G1 0 1 ltac:(lia)) as A. pose proof (G1 1 1 ltac:(lia)) as B.
      unfold vsum, visited_words, count in G2. cbn in G2.
      rewrite (rsum_const (0 + 0)%R) in G2. replace (0 + 0)%R with 0%R in G2 by ring. rewrite Rmult_0_r in G2.
      replace (grad 0 1) with (11/10)%R by lra. lra.
    + destruct (kappa_pos (S b) (6/10) (6/10)) as (x & Ex & _); [pose proof (pos_INR (S b)); lra|].
      change (match b with 0 => 1%R | S _ => (INR b + 1)%R end) with (INR (S b)). rewrite Ex. cbn. eexists. split; [reflexivity|]. cbn. auto.
  - exists id_psi, low, 2, 2, tiny_docs, (doc_lens tiny_docs), (fun _ => 1%R), (11/10)%R, (fun _ _ => 20%R), (fun _ _ => 1%R), w, tp, 0, 1.
    split; [apply tiny_corpus|]. split; [lra|]. split; [intros; lra|]. split; [unfold query; rewrite E; reflexivity|].
    split; [lia|]. split; [lia|]. exact HW.
Qed.

Definition three_docs : list words := [[(0, 1%R)]; [(1, 1%R)]; [(0, 1%R)]].
Lemma three_corpus : corpus 2 three_docs (doc_lens three_docs).
Proof.
  assert (X : forall u, u < 2 -> NoDup (map fst [(u, 1%R)]) /\ Forall (fun e => fst e < 2 /\ (0 <= snd e)%R) [(u, 1%R)]).
  { intros u Hu. split; [constructor; [intros []|constructor]|]. constructor; [cbn; split; [lia|lra]|constructor]. }
  split.
  - constructor; [apply X; lia|]. constructor; [apply X; lia|]. constructor; [apply X; lia|]. constructor.
  - intros d H. cbn in H. split; [reflexivity|]. destruct d as [|[|[|]]]; cbn; lra || lia.
Qed.
(** Batch training of the same documents gives topics the weight of all three. *)
Theorem C116_corpus_weight_refuted : exists psi bound K T docs docLens prior vp p q word topics w1 t1 l1 w2 t2 l2,
  corpus T docs docLens /\ (1 <= p_delay p)%R /\ p_rate p = RKappa /\ p_rate q = RBatch /\
  train psi bound K T docs docLens prior vp p word topics true = Ok (w1, t1, l1) /\
  train psi bound K T docs docLens prior vp q word topics true = Ok (w2, t2, l2) /\
  (total_weight K T w1 + 2 <= total_weight K T w2)%R /\ total_weight K T w2 = (INR K * INR T * vp + 3)%R.
Proof.
  set (p := new_plan 9 1 1 (6/10) 2 (5/10) RBatch). set (q := default_plan 9 0).
  set (w0 := fun _ _ : nat => 1%R). pose proof three_corpus as C3.
  destruct (C116_weight_of_a_batch id_psi low 2 2 three_docs (doc_lens three_docs) (fun _ => 1%R) (11/10) p w0 w0 true 1)
    as (w1 & t1 & l1 & E1 & H1); [lia|cbn; lia|exact C3|reflexivity|cbn; lra|cbn; lra|cbn; lia| |unfold total_weight, vsum, w0; cbn; lra|].
  { intros d Hd. cbn in Hd. destruct d as [|[|[|]]]; cbn; lra || lia. }
  destruct (C114_batch_training_conserves_tokens id_psi low 2 2 three_docs (doc_lens three_docs) (fun _ => 1%R) (11/10) q w0 w0 true)
    as (w2 & t2 & l2 & E2 & _ & _ & H2); [lia|cbn; lia|exact C3|reflexivity|cbn; lia|].
  assert (H3 : total_weight 2 2 w2 = (INR 2 * INR 2 * (11/10) + 3)%R).
  { unfold total_weight. rewrite (vsum_ext 2 _ (fun t => INR 2 * (11/10) + word_total three_docs t)%R) by (intros; apply H2).
    unfold vsum, word_total, count. cbn. lra. }
  exists id_psi, low, 2, 2, three_docs, (doc_lens three_docs), (fun _ => 1%R), (11/10)%R, p, q, w0, w0, w1, t1, l1, w2, t2, l2.
  split; [exact C3|]. split; [cbn; lra|]. do 2 (split; [reflexivity|]). split; [exact E1|]. split; [exact E2|].
  split; [|exact H3]. rewrite H3. cbn [p_batch p new_plan] in H1. cbn in H1 |- *. lra.
Qed.

Theorem C49_exactly_once_refuted : exists psi bound K T docs docLens prior vp p word topics word' topics' log,
  corpus T docs docLens /\ p_iterations p = 1%Z /\ p_rate p = RKappa /\
  train psi bound K T docs docLens prior vp p word topics true = Ok (word', topics', log) /\
  log = [0; 1; 2; 0].
Proof.
  set (p := new_plan 1 2 1 (6/10) 2 (5/10) RBatch). set (w0 := fun _ _ : nat => 1%R). pose proof three_corpus as C3.
  destruct (C114_minibatch_training_conserves_document_tokens id_psi low 2 2 three_docs (doc_lens three_docs) (fun _ => 1%R) (11/10) p w0 w0 true)
    as (w & tp & log & E & _); [lia|cbn; lia|exact C3|reflexivity|cbn; lra|cbn; lia|cbn; lia|].
  exists id_psi, low, 2, 2, three_docs, (doc_lens three_docs), (fun _ => 1%R), (11/10)%R, p, w0, w0, w, tp, log.
  split; [exact C3|]. do 2 (split; [reflexivity|]). split; [exact E|].
  destruct (C49_order id_psi low 2 2 three_docs (doc_lens three_docs) (fun _ => 1%R) (11/10) p w0 w0 true w tp log) as (n & -> & _ & HN);
    [lia|cbn; lia|exact C3|exact E|]. rewrite HN by discriminate. reflexivity.
Qed.

(** ** C118 *)
Lemma seed_loop_grows (docs : list words) draw : Forall (Forall (fun e => (0 <= snd e)%R)) docs ->
  forall fuel i row len row' i', seed_loop fuel docs draw i row len = Some (Ok (row', i')) ->
  (forall t, (row t <= row' t)%R) /\ i <= i'.
Proof.
  intros HP. induction fuel as [|fuel IH]; intros i row len row' i' H; cbn [seed_loop] in H.
  - destruct (rltb len 1000); [discriminate|]. injection H as <- <-. split; [intros; lra|lia].
  - destruct (rltb len 1000); [|injection H as <- <-; split; [intros; lra|lia]].
    destruct (nth_error docs (draw i)) as [doc|] eqn:E; [|discriminate].
    apply IH in H as [H Hi]. split; [|lia]. intros t. eapply Rle_trans; [|apply H].
    apply nth_error_In in E. rewrite Forall_forall in HP. specialize (HP doc E). clear - HP.
    assert (X : forall acc, (forall x, acc = Some x -> (0 <= x)%R) -> forall y,
              fold_left (fun acc '(u, x) => if u =? t then Some x else acc) doc acc = Some y -> (0 <= y)%R).
    { induction doc as [|[u x] doc IH]; intros acc Ha y Hy; [apply Ha, Hy|]. inversion HP; subst. cbn [fold_left] in Hy.
      refine (IH H2 _ _ y Hy). intros z Hz. destruct (u =? t); [injection Hz as <-; exact H1|apply Ha, Hz]. }
    destruct (fold_left _ doc None) eqn:F; [|lra]. apply X in F; [lra|discriminate].
Qed.

Theorem C118_seeded_topics_are_distributions : forall fuel K T (docs : list words) draw rows, 0 < T ->
  Forall (Forall (fun e => (0 <= snd e)%R)) docs ->
  new_model fuel K T docs draw = Some (Ok rows) ->
  1 < K < 255 /\ length rows = K /\
  Forall (fun row => proper T row /\ forall t, t < T -> (0 < row t <= 1)%R) rows.
Proof.
  intros fuel K T docs draw rows HT HP H. unfold new_model in H. destruct ((1 <? K) && (K <? 255)) eqn:EK; [|discriminate].
  apply andb_prop in EK as [K1 K2]. apply Nat.ltb_lt in K1, K2. split; [lia|]. clear K1 K2.
  revert H. generalize 0 at 1 as i. revert rows. induction K as [|K IH]; intros rows i H; cbn [seed_topics] in H.
  - injection H as <-. split; [reflexivity|constructor].
  - unfold seed_topic in H. destruct (seed_loop fuel docs draw i (fun _ => 1%R) 0) as [[[row j]|]|] eqn:E; try discriminate.
    destruct (seed_topics fuel K T docs draw j) as [[rs|]|] eqn:E2; try discriminate. injection H as <-.
    destruct (IH rs j E2) as [L F]. split; [cbn; lia|]. constructor; [|exact F].
    apply (seed_loop_grows docs draw HP) in E as [G _].
    assert (P : forall t, t < T -> (0 < row t)%R) by (intros t _; specialize (G t); lra).
    pose proof (vsum_pos T row HT P) as PS. split; [split|].
    + intros t Ht. apply Rmult_le_pos; [left; apply P, Ht|left; apply Rinv_0_lt_compat, PS].
    + unfold Rdiv. rewrite vsum_scale_r. field. lra.
    + intros t Ht. split; [apply Rdiv_lt_0_compat; [apply P, Ht|exact PS]|].
      apply Rmult_le_reg_r with (vsum T row); [exact PS|]. unfold Rdiv. rewrite Rmult_assoc, Rinv_l, Rmult_1_r, Rmult_1_l by lra.
      apply vsum_in_le; [intros j' Hj; left; apply P, Hj|exact Ht].
Qed.

(** A thousand draws per topic suffice if no document is empty. *)
Theorem C118_seeding_ends : forall K T docs draw, 1 < K < 255 ->
  Forall (fun doc => (1 <= tokens doc)%R) docs -> (forall i, draw i < length docs) ->
  exists rows, new_model 1000 K T docs draw = Some (Ok rows).
Proof.
  intros K T docs draw HK HF HD. unfold new_model.
  rewrite (proj2 (Nat.ltb_lt 1 K)), (proj2 (Nat.ltb_lt K 255)) by lia. cbn [andb].
  assert (L : forall fuel i row len, (1000 <= INR fuel + len)%R -> exists r, seed_loop fuel docs draw i row len = Some (Ok r)).
  { induction fuel as [|fuel IH]; intros i row len H; cbn [seed_loop].
    - rewrite (proj2 (rltb_false _ _)) by (cbn in H; lra). eexists; reflexivity.
    - destruct (rltb len 1000); [|eexists; reflexivity].
      destruct (nth_error docs (draw i)) as [doc|] eqn:E; [|apply nth_error_None in E; specialize (HD i); lia].
      apply IH. rewrite S_INR in H. rewrite Forall_forall in HF. specialize (HF doc (nth_error_In _ _ E)). unfold tokens in HF. lra. }
  assert (M : (1000 <= INR 1000 + 0)%R) by (rewrite INR_IZR_INZ; cbn; lra).
  remember 1000 as fuel eqn:EF. clear EF. generalize 0 at 1 as i. clear HK. induction K as [|K IH]; intros i; cbn [seed_topics].
  - eexists; reflexivity.
  - unfold seed_topic. destruct (L fuel i (fun _ => 1%R) 0%R M) as ([row j] & ->).
    destruct (IH j) as (rows & ->). eexists; reflexivity.
Qed.

(** Seeding never ends if the documents have no tokens. *)
Theorem C118_empty_documents_never_end : forall fuel K T docs draw, 1 < K < 255 ->
  Forall (fun doc => tokens doc = 0%R) docs -> (forall i, draw i < length docs) ->
  new_model fuel K T docs draw = None.
Proof.
  intros fuel K T docs draw HK HF HD. unfold new_model.
  rewrite (proj2 (Nat.ltb_lt 1 K)), (proj2 (Nat.ltb_lt K 255)) by lia. cbn [andb].
  assert (L : forall fuel i row, seed_loop fuel docs draw i row 0 = None).
  { clear fuel. induction fuel as [|fuel IH]; intros i row; cbn [seed_loop]; rewrite (proj2 (rltb_true _ _)) by lra; [reflexivity|].
    destruct (nth_error docs (draw i)) as [doc|] eqn:E; [|apply nth_error_None in E; specialize (HD i); lia].
    rewrite Forall_forall in HF. specialize (HF doc (nth_error_In _ _ E)). unfold tokens in HF. rewrite HF, Rplus_0_r. apply IH. }
  destruct K; [lia|]. cbn [seed_topics]. unfold seed_topic. rewrite L. reflexivity.
Qed.
Theorem C118_seeding_ends_refuted : exists K T docs draw, 1 < K < 255 /\ (forall i, draw i < length docs) /\
  forall fuel, new_model fuel K T docs draw = None.
Proof.
  exists 2, 3, [@nil (nat * R)], (fun _ => 0). split; [lia|]. split; [cbn; lia|]. intros fuel.
  apply C118_empty_documents_never_end; [lia|constructor; [reflexivity|constructor]|cbn; lia].
Qed.

(** ** C119 *)
Theorem C119_new_query_state : forall K (docs : list words) theta prior, length docs <> 1 ->
  Forall (Forall (fun e => (0 <= snd e)%R)) docs -> (forall d, d < length docs -> proper K (theta d)) ->
  exists lens params, new_query docs theta prior = Ok (lens, params) /\
    (forall d, d < length docs -> lens d = tokens (nth d docs [])) /\ doc_params K docs lens prior params.
Proof.
  intros K docs theta prior H1 HP HT. unfold new_query. rewrite (proj2 (Nat.eqb_neq _ _) H1). do 2 eexists. split; [reflexivity|].
  split; [reflexivity|]. intros d Hd. apply C51_params_of_distributions; [|apply HT, Hd].
  unfold doc_lens. apply rsum_nonneg. apply Forall_forall. intros x Hx. apply in_map_iff in Hx as (e & <- & He).
  rewrite Forall_forall in HP. specialize (HP (nth d docs []) (nth_In _ _ Hd)). rewrite Forall_forall in HP. apply HP, He.
Qed.
Theorem C119_single_document_fails : forall doc theta prior, new_query [doc] theta prior = Raise IndexError.
Proof. reflexivity. Qed.
Theorem C119_every_corpus_refuted : exists docs theta prior, Forall (fun doc => (1 <= tokens doc)%R) docs /\ 
  (forall d, d < length docs -> proper 2 (theta d)) /\ new_query docs theta prior = Raise IndexError.
Proof.
  exists tiny_docs, (fun _ _ => (1/2)%R), (fun _ => 1%R). split; [repeat constructor; cbn; lra|]. split; [|reflexivity].
  intros d _. split; [intros; lra|unfold vsum; cbn; lra].
Qed.

(** ** Examples *)
Example C114_case : exists word' topics' log,
  train id_psi low 2 2 three_docs (doc_lens three_docs) (fun _ => 1%R) (11/10) (default_plan 4 0) (fun _ _ => (1/2)%R) (fun _ _ => 2%R) true = Ok (word', topics', log) /\
  (word' 0%nat 0%nat + word' 1%nat 0%nat = 2 * (11/10) + 2)%R /\ (topics' 0%nat 0%nat + topics' 0%nat 1%nat = 3)%R /\ log = [0; 1; 2; 0; 1; 2; 0; 1; 2; 0; 1; 2].
Proof.
  destruct (C114_batch_training_conserves_tokens id_psi low 2 2 three_docs (doc_lens three_docs) (fun _ => 1%R) (11/10) (default_plan 4 0) (fun _ _ => (1/2)%R) (fun _ _ => 2%R) true)
    as (w & tp & log & E & HT & _ & HW); [lia|cbn; lia|apply three_corpus|reflexivity|cbn; lia|].
  exists w, tp, log. split; [exact E|]. specialize (HW 0). unfold vsum, word_total, count in HW. cbn in HW.
  destruct (HT 0) as [_ H0]; [cbn; lia|]. unfold vsum in H0. cbn in H0. split; [lra|]. split; [lra|].
  destruct (C49_order id_psi low 2 2 three_docs (doc_lens three_docs) (fun _ => 1%R) (11/10) (default_plan 4 0) (fun _ _ => (1/2)%R) (fun _ _ => 2%R) true w tp log) as (n & -> & HN & _);
    [lia|cbn; lia|apply three_corpus|exact E|]. rewrite HN by reflexivity. reflexivity.
Qed.
Example C115_case : exists word' topics' log,
  train id_psi low 2 2 three_docs (doc_lens three_docs) (fun _ => 1%R) (11/10) (default_plan 4 2) (fun _ _ => (1/2)%R) (fun _ _ => 2%R) true = Ok (word', topics', log) /\
  (0 < word' 1%nat 0%nat)%R.
Proof.
  destruct (C115_new_models_stay_positive id_psi low 2 2 three_docs (doc_lens three_docs) (fun _ => 1%R) (11/10) (default_plan 4 2) (fun _ _ => (1/2)%R) (fun _ _ => 2%R) true)
    as (w & tp & log & E & HW); [lia|cbn; lia|apply three_corpus|reflexivity|cbn; lra|cbn; lra|cbn; lia|lra|intros; lra|].
  exists w, tp, log. split; [exact E|]. apply HW. lia.
Qed.
Example C51_case : params_to_means (fun _ => 4%R) (fun _ k => match k with 0 => 3%R | _ => 2%R end) (fun _ => (1/2)%R) 0 0 = (5/8)%R.
Proof. unfold params_to_means. lra. Qed.
Example C118_case : exists rows, new_model 1000 2 2 three_docs (fun i => i mod 3) = Some (Ok rows).
Proof.
  apply C118_seeding_ends; [lia| |].
  - repeat constructor; cbn; lra.
  - intros i. apply Nat.mod_upper_bound. cbn. lia.
Qed.
Example C119_case : exists lens params, new_query three_docs (fun _ _ => (1/2)%R) (fun _ => 1%R) = Ok (lens, params) /\
  lens 2 = 1%R /\ params 2 0 = (3/2)%R.
Proof. do 2 eexists. split; [reflexivity|]. unfold means_to_params, doc_lens. cbn. split; lra. Qed.

Print Assumptions C49_order.
Print Assumptions C49_visits_differ_by_at_most_one.
Print Assumptions C49_batch_visits_exactly_once.
Print Assumptions C49_minibatch_visits_at_least_once.
Print Assumptions C114_batch_training_conserves_tokens.
Print Assumptions C114_minibatch_training_conserves_document_tokens.
Print Assumptions C114_reported_distributions.
Print Assumptions C50_query_learns_the_query.
Print Assumptions C50_update_flag_ignored.
Print Assumptions C115_parameters_stay_positive.
Print Assumptions C115_new_models_stay_positive.
Print Assumptions C116_weight_of_a_batch.
Print Assumptions C117_stochastic_rates_need_a_batch_size.
Print Assumptions C117_batch_size_selects_kappa.
Print Assumptions C117_requested_rate_refuted.
Print Assumptions C51_params_to_means_and_back.
Print Assumptions C51_means_to_params_and_back.
Print Assumptions C51_means_are_distributions.
Print Assumptions C51_params_of_distributions.
Print Assumptions C63_steps_keep_distributions.
Print Assumptions C63_extreme_steps.
Print Assumptions C63_kappa_steps.
Print Assumptions C63_default_steps.
Print Assumptions C63_default_first_step_refuted.
Print Assumptions C63_variance_first_step.
Print Assumptions C114_amari_parameters.
Print Assumptions C50_model_unchanged_refuted.
Print Assumptions C63_variance_step_refuted.
Print Assumptions C63_amari_step_refuted.
Print Assumptions C114_amari_refuted.
Print Assumptions C115_trained_models_refuted.
Print Assumptions C116_corpus_weight_refuted.
Print Assumptions C49_exactly_once_refuted.
Print Assumptions C118_seeded_topics_are_distributions.
Print Assumptions C118_seeding_ends.
Print Assumptions C118_empty_documents_never_end.
Print Assumptions C118_seeding_ends_refuted.
Print Assumptions C119_new_query_state.
Print Assumptions C119_single_document_fails.
Print Assumptions C119_every_corpus_refuted.
