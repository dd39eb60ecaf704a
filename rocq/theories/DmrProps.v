(** * C62, C126, C127, C129: the sampler of Dirichlet-multinomial regression *)
From Coq Require Import List ZArith QArith Qfield Arith Bool Lia Lqa Permutation.
From Verif Require Import Base EvalSpec EvalProofs CvbModel CvbProofs CvbMore GibbsModel GibbsSpec GibbsProofs GibbsMore GibbsRuns GibbsDist GibbsProps DmrModel DmrProofs.
Import ListNotations.
Open Scope nat_scope.

Notation no_kv := (fun _ _ : nat => 0%Z).
Notation no_k := (fun _ : nat => 0%Z).

(** ** What the arguments must satisfy *)
Section Sampler.
  Context (K T F : nat) (w : nat -> nat) (lens : list nat) (X : nat -> nat -> Q) (b : nat -> Q).
  Context (special : gst -> nat -> nat -> Z).
  Let D := length lens.
  Notation alphas := (dmr_alphas F X).
  (** Weights which give every document a positive prior for every topic. *)
  Definition positive_priors (weights : nat -> nat -> Q) : Prop :=
    forall d k, d < D -> k < K -> (0 < qsum (fun f => X d f * weights k f) (seq 0 F))%Q.
  Definition corpus_ok (z : nat -> nat) : Prop :=
    0 < D /\ (forall n, In n lens -> (Z.of_nat n < 65536)%Z) /\ (forall n, n < total lens -> w n < T) /\ assigned lens K z.
  Definition model_ok : Prop :=
    0 < K <= 256 /\ 0 < T /\ (forall v, v < T -> (0 < b v)%Q) /\ (forall s d v, (special s d v < Z.of_nat K)%Z).

  Notation ok := (counts_ok K w lens false no_kv no_k).

  Lemma train_proper weights z d : model_ok -> corpus_ok z -> positive_priors weights -> d < D ->
    proper K T w lens no_kv no_k (alphas weights d) b.
  Proof.
    intros (HK & HT & Hb & _) (_ & _ & Hw & _) HP Hd. split; [intros j Hj; apply HP; assumption|].
    split; [intros n Hn; apply Qlt_le_weak, Hb, Hw, Hn|]. split; [intros; lia|]. split.
    - intros j Hj. split; [lia|]. pose proof (qsum_pos_all b T HT Hb). change (inject_Z 0) with 0%Q. lra.
    - intros n Hn. exists 0. split; [lia|]. pose proof (Hb _ (Hw n Hn)). change (inject_Z 0) with 0%Q. lra.
  Qed.

  (** The burn-in records nothing. *)
  Lemma burn_in_div n : Z.to_nat n / Z.to_nat (n + 1) = 0.
  Proof.
    destruct (Z.ltb_spec n 0).
    - replace (Z.to_nat n) with 0 by lia. destruct (Z.to_nat (n + 1)); [reflexivity|apply Nat.div_0_l; lia].
    - apply Nat.div_small. lia.
  Qed.

  Section Train.
    Context (opt : (nat -> nat -> nat -> Z) -> nat -> (nat -> nat -> Q) -> nat -> nat -> Q) (r : nat -> rng).
    Notation loop := (dmr_loop K T F w lens X b special opt r).
    Notation train := (dmr_train K T F w lens X b special opt r).

    (** What a training run has done: [l] are the recorded states, each with the
        weights that were in force. *)
    Definition history (m : nat) (l : list (gst * (nat -> nat -> Q))) (st : dresult) : Prop :=
      ok (d_g (dr_state st)) /\ length l = dr_count st /\ Forall (fun e => ok (fst e)) l /\
      (forall d k, (d_topic (dr_state st) d k == qsum (fun e => sample_topic K lens (alphas (snd e) d) (fst e) d k) l)%Q) /\
      (forall k v, (d_vocab (dr_state st) k v == qsum (fun e => sample_vocab T b (fst e) k v) l)%Q) /\
      (forall i, m <= i -> forall d k, d_buf (dr_state st) i d k = 0%Z) /\
      (forall i, i < m -> length l <> 0 ->
         exists e, nth_error l (length l - m + i) = Some e /\ d_buf (dr_state st) i = g_dk (fst e)).

    Lemma loop_history (P : (nat -> nat -> Q) -> Prop) cap p n : K <= 256 -> (forall s d v, (special s d v < Z.of_nat K)%Z) ->
      (forall buf c wt, P wt -> P (opt buf c wt)) ->
      let m := Z.to_nat (dp_interval p) / Z.to_nat (dp_thin p) in
      forall i l st st', history m l st -> Forall (fun e => P (snd e)) l -> P (dr_weights st) -> loop cap p n i st = Ok st' ->
      (n <> 0 -> D = 0 \/ K = 0 \/ m <= cap) /\ P (dr_weights st') /\
      dr_count st' = dr_count st + n * m /\
      exists l', history m l' st' /\ Forall (fun e => P (snd e)) l'.
    Proof.
      intros HK Hsp HP m. induction n as [|n IH]; intros i l st st' Hh Hl Hw E.
      - cbn [dmr_loop] in E. apply ok_inj in E. subst st'. split; [lia|]. split; [exact Hw|]. split; [lia|]. exists l. split; assumption.
      - cbn [dmr_loop] in E. apply bind_ok in E. destruct E as (s & E1 & E). rewrite dmr_sample_run in E1.
        destruct Hh as (H1 & H2 & H3 & H4 & H5 & H6 & H7).
        destruct (dmr_run_samples K T w lens b special false cap (r_start (r i)) (r_u (r i)) (alphas (dr_weights st)) ok _ _ _ _
          (fun sw g g' => dmr_sweep_ok K T w lens b special false (r_start (r i)) (r_u (r i)) (alphas (dr_weights st)) no_kv no_k HK Hsp sw g g') H1 E1)
          as (_ & Hc & Hg & l1 & L1 & L2 & L3 & L4 & L5 & _ & L7 & L8).
        fold m in Hc, L1, L2, L8.
        assert (Hh' : history m (l ++ map (fun g => (g, dr_weights st)) l1) (mkDr s (opt (d_buf s) (dr_count st + d_taken s) (dr_weights st)) (dr_count st + d_taken s))).
        { unfold history. cbn [dr_state dr_count]. split; [exact Hg|]. rewrite app_length, map_length.
          split; [lia|]. split; [apply Forall_app; split; [exact H3|]; apply Forall_map; exact L3|].
          split; [|split; [|split]].
          - intros d k. rewrite qsum_app, qsum_map. cbn [fst snd]. rewrite L4, H4. reflexivity.
          - intros k v. rewrite qsum_app, qsum_map. cbn [fst snd]. rewrite L5, H5. reflexivity.
          - intros j Hj d k. rewrite L8, H6 by exact Hj. reflexivity.
          - intros j Hj _. destruct (nth_error l1 j) as [t|] eqn:Ej.
            2:{ apply nth_error_None in Ej. lia. }
            exists (t, dr_weights st). split; [|apply L7; exact Ej].
            rewrite nth_error_app2 by lia. replace (length l + length l1 - m + j - length l) with j by lia.
            rewrite nth_error_map, Ej. reflexivity. }
        assert (Hl' : Forall (fun e => P (snd e)) (l ++ map (fun g => (g, dr_weights st)) l1)).
        { apply Forall_app. split; [exact Hl|]. apply Forall_map. apply Forall_forall. intros g _. exact Hw. }
        destruct (IH _ _ _ _ Hh' Hl' (HP _ _ _ Hw) E) as (I1 & I2 & I3 & I4). cbn [dr_count] in I3.
        split; [intros _; exact Hc|]. split; [exact I2|]. split; [lia|exact I4].
    Qed.

    Lemma loop_total (P : (nat -> nat -> Q) -> Prop) cap p z n : model_ok -> corpus_ok z ->
      (forall wt, P wt -> positive_priors wt) -> (forall buf c wt, P wt -> P (opt buf c wt)) -> (forall i, good_draws (r i)) -> (0 < dp_thin p)%Z ->
      let m := Z.to_nat (dp_interval p) / Z.to_nat (dp_thin p) in
      forall i st, ok (d_g (dr_state st)) -> P (dr_weights st) ->
      (m <= cap -> exists st', loop cap p n i st = Ok st') /\ (cap < m -> 0 < n -> loop cap p n i st = Raise MemoryOOB).
    Proof.
      intros Hm Hc HPP HP Hr Ht m. induction n as [|n IH]; intros i st Hok Hw.
      - split; [|lia]. intros _. exists st. reflexivity.
      - cbn [dmr_loop]. rewrite dmr_sample_run.
        pose proof Hm as (HK & HT & Hb & Hsp). pose proof Hc as (HD & _).
        destruct (dmr_run_total K T w lens b special false cap (r_start (r i)) (r_u (r i)) (alphas (dr_weights st)) no_kv no_k ltac:(lia) Hsp
           (fun d Hd => train_proper (dr_weights st) z d Hm Hc (HPP _ Hw) Hd) (Z.to_nat (dp_thin p)) (Z.to_nat (dp_interval p)) (dr_state st)
           (Hr i) Hok ltac:(lia) HD ltac:(lia)) as (R1 & R2). fold m in R1, R2. split.
        + intros Hle. destruct (R1 Hle) as (s & E & Hs). rewrite E. cbn [bind]. apply IH; [exact Hs| |exact Hle]. apply HP. exact Hw.
        + intros Hlt _. rewrite (R2 Hlt). reflexivity.
    Qed.

    Lemma start_history m weights z s1 cap (r0 : rng) n : K <= 256 -> (forall s d v, (special s d v < Z.of_nat K)%Z) -> assigned lens K z ->
      dmr_sample K T w lens b special false cap (r_start r0) (r_u r0) (alphas weights) n (Z.to_nat (n + 1))
        (mkD (sum_suff_stats w lens (mkG z no_kv no_kv no_k)) zeroK zeroK zero3 0) = Ok s1 ->
      history m [] (mkDr s1 weights 0).
    Proof.
      intros HK Hsp Hz E. rewrite dmr_sample_run in E.
      destruct (C41_initial_counts_match K w lens z Hz) as (Hs0 & _). pose proof (proj1 (tallied_ok K w lens _) Hs0) as Hs.
      destruct (dmr_run_samples K T w lens b special false cap (r_start r0) (r_u r0) (alphas weights) ok _ _
          (mkD (sum_suff_stats w lens (mkG z no_kv no_kv no_k)) zeroK zeroK zero3 0) _
          (fun sw g g' => dmr_sweep_ok K T w lens b special false (r_start r0) (r_u r0) (alphas weights) no_kv no_k HK Hsp sw g g') Hs E)
        as (_ & _ & Hg & l & L1 & _ & _ & L4 & L5 & _ & _ & L8). cbn [d_topic d_vocab d_buf] in *.
      rewrite burn_in_div in *. destruct l; [|discriminate].
      split; [exact Hg|]. split; [reflexivity|]. split; [constructor|]. cbn [dr_state].
      split; [intros; rewrite L4, !qsum_nil; reflexivity|]. split; [intros; rewrite L5, !qsum_nil; reflexivity|].
      split; [intros; rewrite L8 by lia; reflexivity|]. intros i Hi Hne. cbn in Hne. lia.
    Qed.

    Lemma train_history (P : (nat -> nat -> Q) -> Prop) r0 p weights z st :
      K <= 256 -> (forall s d v, (special s d v < Z.of_nat K)%Z) -> assigned lens K z ->
      (forall buf c wt, P wt -> P (opt buf c wt)) -> P weights ->
      train r0 p weights z = Ok st ->
      let m := Z.to_nat (dp_interval p) / Z.to_nat (dp_thin p) in
      dp_thin p <> 0%Z /\ (0 <= (dp_iterations p - dp_burn p) / dp_thin p)%Z /\ 0 < D /\
      (dmr_rounds p <> 0 -> K = 0 \/ m <= Z.to_nat ((dp_iterations p - dp_burn p) / dp_thin p)) /\
      P (dr_weights st) /\ dr_count st = dmr_rounds p * m /\
      exists l, history m l st /\ Forall (fun e => P (snd e)) l.
    Proof.
      intros HK Hsp Hz HP Hw E m. unfold dmr_train in E. destruct (Nat.eqb_spec (length lens) 0) as [|HD]; [discriminate|].
      destruct (existsb _ lens); [discriminate|]. apply bind_ok in E. destruct E as (cap & Ec & E).
      apply bind_ok in E. destruct E as (s1 & E1 & E).
      destruct (dp_interval p =? 0)%Z; [discriminate|].
      unfold dmr_capacity in Ec. destruct (Z.eqb_spec (dp_thin p) 0) as [|Ht]; [discriminate|].
      destruct (Z.ltb_spec ((dp_iterations p - dp_burn p) / dp_thin p) 0) as [|Hcap]; [discriminate|]. apply ok_inj in Ec. subst cap.
      pose proof (start_history m weights z s1 _ r0 _ HK Hsp Hz E1) as H0.
      destruct (loop_history P _ p _ HK Hsp HP 0 [] _ st H0 (Forall_nil _) Hw E) as (A & B & C & G). fold m in A, C, G. cbn [dr_count] in C.
      split; [exact Ht|]. split; [exact Hcap|]. split; [unfold D; lia|]. split; [intros Hn; specialize (A Hn); tauto|]. split; [exact B|]. split; [exact C|exact G].
    Qed.

    (** ** C62 *)
    (** Whenever training returns, every sample of every round was stored inside the
        array. *)
    Theorem C62_training_in_bounds r0 p weights z st : 0 < K <= 256 -> (forall s d v, (special s d v < Z.of_nat K)%Z) ->
      assigned lens K z -> train r0 p weights z = Ok st -> 0 < dmr_rounds p ->
      (Z.of_nat (Z.to_nat (dp_interval p) / Z.to_nat (dp_thin p)) <= (dp_iterations p - dp_burn p) / dp_thin p)%Z.
    Proof.
      intros HK Hsp Hz E Hr.
      destruct (train_history (fun _ => True) r0 p weights z st ltac:(lia) Hsp Hz (fun _ _ _ _ => Coq.Init.Logic.I) Coq.Init.Logic.I E) as (_ & H0 & HD & H & _).
      destruct (H ltac:(lia)) as [|H']; lia.
    Qed.

    (** It returns exactly when a round's samples fit; otherwise it writes after the
        end.  [P] is whatever the optimiser maintains that makes the priors positive. *)
    Theorem C62_training_completes_iff (P : (nat -> nat -> Q) -> Prop) r0 p weights z : model_ok -> corpus_ok z ->
      (forall wt, P wt -> positive_priors wt) -> (forall buf c wt, P wt -> P (opt buf c wt)) -> P weights ->
      good_draws r0 -> (forall i, good_draws (r i)) ->
      (0 <= dp_burn p < dp_iterations p)%Z -> (0 < dp_thin p)%Z -> (0 < dp_interval p)%Z ->
      ((exists st, train r0 p weights z = Ok st) <-> (dp_interval p / dp_thin p <= (dp_iterations p - dp_burn p) / dp_thin p)%Z) /\
      ((exists st, train r0 p weights z = Ok st) \/ train r0 p weights z = Raise MemoryOOB).
    Proof.
      intros Hm Hc HPP HP Hw G0 G Hb Ht Hi.
      pose proof Hm as (HK & HT & Hbb & Hsp). pose proof Hc as (HD & Hl & Hws & Hz).
      assert (Hcap : (0 <= (dp_iterations p - dp_burn p) / dp_thin p)%Z) by (apply Z.div_pos; lia).
      assert (Hr : 0 < dmr_rounds p).
      { unfold dmr_rounds. enough (1 <= (dp_iterations p - dp_burn p + dp_interval p - 1) / dp_interval p)%Z by lia.
        apply Z.div_le_lower_bound; lia. }
      assert (Em : Z.to_nat (dp_interval p) / Z.to_nat (dp_thin p) = Z.to_nat (dp_interval p / dp_thin p)) by (symmetry; apply Z2Nat.inj_div; lia).
      assert (Hmp : (0 <= dp_interval p / dp_thin p)%Z) by (apply Z.div_pos; lia).
      enough (((dp_interval p / dp_thin p <= (dp_iterations p - dp_burn p) / dp_thin p)%Z -> exists st, train r0 p weights z = Ok st) /\
              (((dp_iterations p - dp_burn p) / dp_thin p < dp_interval p / dp_thin p)%Z -> train r0 p weights z = Raise MemoryOOB)) as (A & B).
      { destruct (Z.le_gt_cases (dp_interval p / dp_thin p) ((dp_iterations p - dp_burn p) / dp_thin p)) as [H|H].
        - split; [|left; exact (A H)]. split; [intros _; exact H|exact A].
        - specialize (B H). split; [|right; exact B]. split; [|lia]. intros (st & E). congruence. }
      unfold dmr_train. fold D. replace (D =? 0) with false by lia.
      assert (existsb (fun n => (65536 <=? Z.of_nat n)%Z) lens = false) as ->.
      { apply not_true_is_false. intros Hex. apply existsb_exists in Hex. destruct Hex as (n & Hn & Hn'). specialize (Hl n Hn). lia. }
      unfold dmr_capacity. replace (dp_thin p =? 0)%Z with false by lia.
      replace ((dp_iterations p - dp_burn p) / dp_thin p <? 0)%Z with false by lia. cbn [bind]. rewrite dmr_sample_run.
      destruct (C41_initial_counts_match K w lens z Hz) as (Hs0 & _). pose proof (proj1 (tallied_ok K w lens _) Hs0) as Hs.
      set (cap := Z.to_nat ((dp_iterations p - dp_burn p) / dp_thin p)).
      destruct (dmr_run_total K T w lens b special false cap (r_start r0) (r_u r0) (alphas weights) no_kv no_k ltac:(lia) Hsp
           (fun d Hd => train_proper weights z d Hm Hc (HPP _ Hw) Hd) (Z.to_nat (dp_burn p + 1)) (Z.to_nat (dp_burn p))
           (mkD (sum_suff_stats w lens (mkG z no_kv no_kv no_k)) zeroK zeroK zero3 0)
           G0 Hs ltac:(lia) HD ltac:(lia)) as (R1 & _).
      rewrite burn_in_div in R1. destruct (R1 ltac:(lia)) as (s1 & E1 & Hok). rewrite E1. cbn [bind].
      replace (dp_interval p =? 0)%Z with false by lia.
      destruct (loop_total P cap p z (dmr_rounds p) Hm Hc HPP HP G Ht 0 (mkDr s1 weights 0) Hok Hw) as (L1 & L2).
      rewrite Em in L1, L2. split; intros H; [apply L1|apply L2]; unfold cap; lia.
    Qed.

    (** With the default burn-in, thinning and interval, training stays inside the
        array only from 50 iterations on. *)
    Theorem C62_default_training_iff (P : (nat -> nat -> Q) -> Prop) r0 iterations weights z : model_ok -> corpus_ok z ->
      (forall wt, P wt -> positive_priors wt) -> (forall buf c wt, P wt -> P (opt buf c wt)) -> P weights ->
      good_draws r0 -> (forall i, good_draws (r i)) -> (0 < iterations)%Z ->
      ((50 <= iterations)%Z -> exists st, train r0 (dmr_plan iterations (-1) (-1) (-1)) weights z = Ok st) /\
      ((iterations < 50)%Z -> train r0 (dmr_plan iterations (-1) (-1) (-1)) weights z = Raise MemoryOOB).
    Proof.
      intros Hm Hc HPP HP Hw G0 G Hi.
      set (p := dmr_plan iterations (-1) (-1) (-1)).
      assert (Hp : (dp_burn p = iterations / 4 /\ dp_iterations p - dp_burn p = iterations /\ dp_interval p = 10 * dp_thin p /\
                    (0 < dp_thin p) /\ (iterations <= 500 -> dp_thin p = 5) /\ (500 < iterations -> dp_thin p = 10 \/ dp_thin p = 50 /\ 1000 < iterations))%Z).
      { subst p. unfold dmr_plan. cbn -[Z.div Z.leb Z.mul].
        destruct (Z.leb_spec iterations 500), (Z.leb_spec iterations 1000); lia. }
      destruct Hp as (P1 & P2 & P3 & P4 & P5 & P6).
      assert (0 <= iterations / 4)%Z by (apply Z.div_pos; lia).
      destruct (C62_training_completes_iff P r0 p weights z Hm Hc HPP HP Hw G0 G ltac:(lia) P4 ltac:(lia)) as ((_ & I2) & [(st & E)|E]).
      - split; [intros _; exists st; exact E|]. intros Hlt. exfalso.
        pose proof (C62_training_in_bounds r0 p weights z st ltac:(apply Hm) ltac:(apply Hm) ltac:(apply Hc) E) as B.
        assert (Hr : 0 < dmr_rounds p).
        { unfold dmr_rounds. rewrite P2. enough (1 <= (iterations + dp_interval p - 1) / dp_interval p)%Z by lia. apply Z.div_le_lower_bound; lia. }
        specialize (B Hr). rewrite <- Z2Nat.inj_div, Z2Nat.id in B by (try apply Z.div_pos; lia). rewrite P2, P3, (P5 ltac:(lia)) in B.
        change (10 * 5 / 5)%Z with 10%Z in B. assert (iterations / 5 < 10)%Z by (apply Z.div_lt_upper_bound; lia). lia.
      - split; [|intros _; exact E]. intros Hge. apply I2. rewrite P2, P3, Z.div_mul by lia. apply Z.div_le_lower_bound; [lia|].
        destruct (Z.le_gt_cases iterations 500) as [H5|H5]; [rewrite (P5 H5); lia|]. destruct (P6 ltac:(lia)) as [->|(-> & ?)]; lia.
    Qed.

    (** ** C126 *)
    Theorem C126_training_counts_match r0 p weights z st : K <= 256 -> (forall s d v, (special s d v < Z.of_nat K)%Z) ->
      assigned lens K z -> train r0 p weights z = Ok st -> tallied K w lens (d_g (dr_state st)).
    Proof.
      intros HK Hsp Hz E.
      destruct (train_history (fun _ => True) r0 p weights z st HK Hsp Hz (fun _ _ _ _ => Coq.Init.Logic.I) Coq.Init.Logic.I E) as (_ & _ & _ & _ & _ & _ & l & (H & _) & _).
      apply tallied_ok. exact H.
    Qed.
    Theorem C126_sample_count r0 p weights z st : K <= 256 -> (forall s d v, (special s d v < Z.of_nat K)%Z) ->
      assigned lens K z -> train r0 p weights z = Ok st ->
      dr_count st = dmr_rounds p * (Z.to_nat (dp_interval p) / Z.to_nat (dp_thin p)).
    Proof.
      intros HK Hsp Hz E.
      destruct (train_history (fun _ => True) r0 p weights z st HK Hsp Hz (fun _ _ _ _ => Coq.Init.Logic.I) Coq.Init.Logic.I E) as (_ & _ & _ & _ & _ & H & _). exact H.
    Qed.
    Theorem C126_training_distributions (P : (nat -> nat -> Q) -> Prop) r0 p weights z st td wd : model_ok -> corpus_ok z ->
      (forall wt, P wt -> positive_priors wt) -> (forall buf c wt, P wt -> P (opt buf c wt)) -> P weights ->
      train r0 p weights z = Ok st -> dmr_topic_dists st = Some td -> dmr_word_dists st = Some wd ->
      (forall d, d < D -> distribution K (td d)) /\ (forall k, distribution T (wd k)).
    Proof.
      intros (HK & HT & Hb & Hsp) (HD & Hl & Hw & Hz) HPP HP Hw0 E E1 E2.
      destruct (train_history P r0 p weights z st ltac:(lia) Hsp Hz HP Hw0 E) as (_ & _ & _ & _ & _ & _ & l & (H1 & H2 & H3 & H4 & H5 & _) & HPl).
      unfold dmr_topic_dists, averaged in E1. unfold dmr_word_dists, averaged in E2. rewrite <- H2 in E1, E2.
      destruct (Nat.eqb_spec (length l) 0) as [|Hne]; [discriminate|]. injection E1 as <-. injection E2 as <-.
      rewrite Forall_forall in H3, HPl. split.
      - intros d Hd. apply (average_dist K (fun e => sample_topic K lens (alphas (snd e) d) (fst e) d) l (d_topic (dr_state st) d) Hne).
        + intros e He. eapply sample_topic_dist; [apply H3; exact He|lia| |exact Hd]. intros k Hk. apply (HPP _ (HPl e He)); assumption.
        + intros k. apply H4.
      - intros k. apply (average_dist T (fun e => sample_vocab T b (fst e) k) l (d_vocab (dr_state st) k) Hne).
        + intros e He. eapply sample_vocab_dist; [apply H3; exact He| | |]; assumption.
        + intros v. apply H5.
    Qed.

    (** ** C127 *)
    (** Of the samples that are counted, only those of the last round are in the array;
        the slots after them are zero. *)
    Theorem C127_only_last_round_stored r0 p weights z st : 0 < K <= 256 -> (forall s d v, (special s d v < Z.of_nat K)%Z) ->
      assigned lens K z -> train r0 p weights z = Ok st -> 0 < dmr_rounds p ->
      let m := Z.to_nat (dp_interval p) / Z.to_nat (dp_thin p) in
      dr_count st = dmr_rounds p * m /\
      (forall i d, i < m -> d < D ->
         (forall k, (0 <= d_buf (dr_state st) i d k)%Z) /\ sumZ (map (d_buf (dr_state st) i d) (seq 0 K)) = Z.of_nat (nth d lens 0)) /\
      (forall i d k, m <= i -> d_buf (dr_state st) i d k = 0%Z).
    Proof.
      intros HK Hsp Hz E Hr m.
      destruct (train_history (fun _ => True) r0 p weights z st ltac:(lia) Hsp Hz (fun _ _ _ _ => Coq.Init.Logic.I) Coq.Init.Logic.I E)
        as (_ & _ & _ & _ & _ & Hc & l & (H1 & H2 & H3 & _ & _ & H6 & H7) & _). fold m in Hc, H6, H7.
      split; [exact Hc|]. split; [|intros; apply H6; assumption].
      intros i d Hi Hd. destruct (H7 i Hi ltac:(nia)) as (e & He & ->).
      apply nth_error_In in He. rewrite Forall_forall in H3. destruct (H3 e He) as (A & B & _). split.
      - intros k. rewrite (B d k Hd). apply count_nonneg.
      - pose proof (sum_doc K lens (g_z (fst e)) d A Hd) as S0.
        rewrite (qsum_ext _ (fun k => inject_Z (g_dk (fst e) d k))) in S0 by (intros; rewrite B by exact Hd; reflexivity).
        rewrite sum_injZ in S0. unfold qnat, len_ in S0. apply inject_Z_injective. exact S0.
    Qed.
    (** All are there exactly when there was one round or nothing was due. *)
    Theorem C127_all_stored_iff_one_round r0 p weights z st : 0 < K <= 256 -> (forall s d v, (special s d v < Z.of_nat K)%Z) ->
      assigned lens K z -> train r0 p weights z = Ok st -> (exists d, d < D /\ 0 < nth d lens 0) ->
      (forall i d, i < dr_count st -> d < D -> sumZ (map (d_buf (dr_state st) i d) (seq 0 K)) = Z.of_nat (nth d lens 0)) <->
      dmr_rounds p <= 1 \/ Z.to_nat (dp_interval p) / Z.to_nat (dp_thin p) = 0.
    Proof.
      intros HK Hsp Hz E (d0 & Hd0 & Hn0). pose proof (C126_sample_count r0 p weights z st ltac:(lia) Hsp Hz E) as Hc.
      destruct (Nat.eq_0_gt_0_cases (dmr_rounds p)) as [H0|H0].
      { rewrite Hc, H0. split; [lia|]. intros _ i d Hi. lia. }
      destruct (C127_only_last_round_stored r0 p weights z st HK Hsp Hz E H0) as (_ & A & B). rewrite Hc.
      set (m := Z.to_nat (dp_interval p) / Z.to_nat (dp_thin p)) in *. split.
      - intros H. destruct (Nat.eq_0_gt_0_cases m) as [|Hm]; [right; assumption|left].
        destruct (Nat.le_gt_cases (dmr_rounds p) 1) as [|H1]; [assumption|exfalso].
        pose proof (H m d0 ltac:(nia) Hd0) as C.
        rewrite (map_ext_in _ (fun _ => 0%Z)) in C by (intros; apply B; lia).
        enough (forall n j, sumZ (map (fun _ : nat => 0%Z) (seq j n)) = 0%Z) as Z0 by (rewrite Z0 in C; lia).
        clear. induction n; intros j; cbn; [reflexivity|]. apply IHn.
      - intros H i d Hi Hd. apply A; [nia|exact Hd].
    Qed.
  End Train.

  (** ** Queries *)
  Section Query.
    Notation query := (dmr_query K T F w lens X b special).
    Notation okq z nkv nk := (counts_ok K w lens true (fun k v => (nkv k v + topic_word w lens z k v)%Z) (fun k => (nk k + topic_all lens z k)%Z)).

    Lemma query_history r0 r1 p weights vocab samples z st :
      K <= 256 -> (forall s d v, (special s d v < Z.of_nat K)%Z) -> assigned lens K z ->
      query r0 r1 p weights vocab samples z = Ok st ->
      exists cap bkv bk l, dmr_capacity p = Ok cap /\
        (D = 0 \/ K = 0 \/ Z.to_nat (dp_iterations p) / Z.to_nat (dp_thin p) <= cap) /\
        length l = dr_count st /\ dr_count st = Z.to_nat (dp_iterations p) / Z.to_nat (dp_thin p) /\
        Forall (counts_ok K w lens true bkv bk) l /\ counts_ok K w lens true bkv bk (d_g (dr_state st)) /\
        (forall d k, (d_topic (dr_state st) d k == qsum (fun t => sample_topic K lens (alphas weights d) t d k) l)%Q) /\
        d_vocab (dr_state st) = vocab /\
        (forall i t, nth_error l i = Some t -> d_buf (dr_state st) i = g_dk t).
    Proof.
      intros HK Hsp Hz E. unfold dmr_query in E. apply bind_ok in E. destruct E as (cap & Ec & E).
      destruct (averaged vocab samples) as [wd|]; [|discriminate].
      apply bind_ok in E. destruct E as (s1 & E1 & E). apply bind_ok in E. destruct E as (s2 & E2 & E).
      apply ok_inj in E. subst st. rewrite dmr_sample_run in E1, E2. cbn [dr_count dr_state].
      set (nkv := fun k v => truncQ (wd k v * 1000000)) in *. set (nk := fun k => sumZ (map (nkv k) (seq 0 T))) in *.
      pose proof (query_init K w lens z nkv nk Hz) as H0.
      match type of H0 with counts_ok _ _ _ _ ?x ?y _ => set (bkv := x) in *; set (bk := y) in * end.
      match type of E1 with dmr_run _ _ _ _ _ _ _ _ _ _ _ _ _ ?s = _ => set (s0 := s) in * end.
      destruct (dmr_run_samples K T w lens b special true cap (r_start r0) (r_u r0) (alphas weights) (counts_ok K w lens true bkv bk) _ _ s0 _
          (fun sw g g' => dmr_sweep_ok K T w lens b special true (r_start r0) (r_u r0) (alphas weights) bkv bk HK Hsp sw g g') H0 E1)
        as (_ & _ & Hg & l0 & L1 & _ & _ & L4 & _ & L6 & _). cbn [d_topic d_vocab] in L4, L6.
      rewrite burn_in_div in L1. destruct l0; [|discriminate]. specialize (L6 eq_refl).
      destruct (dmr_run_samples K T w lens b special true cap (r_start r1) (r_u r1) (alphas weights) (counts_ok K w lens true bkv bk) _ _ _ _
          (fun sw g g' => dmr_sweep_ok K T w lens b special true (r_start r1) (r_u r1) (alphas weights) bkv bk HK Hsp sw g g') Hg E2)
        as (_ & Hcap & Hg2 & l & M1 & M2 & M3 & M4 & _ & M6 & M7 & _). specialize (M6 eq_refl).
      exists cap, bkv, bk, l. split; [exact Ec|]. split; [exact Hcap|]. split; [lia|]. split; [exact M2|]. split; [exact M3|]. split; [exact Hg2|].
      split; [|split; [etransitivity; [exact M6|exact L6]|exact M7]].
      intros d k. rewrite M4, L4, qsum_nil. unfold s0. cbn [d_topic]. unfold zeroK. ring.
    Qed.

    (** A query that returns stored every sample, and each covers the document. *)
    Theorem C62_query_in_bounds r0 r1 p weights vocab samples z st : 0 < K <= 256 -> (forall s d v, (special s d v < Z.of_nat K)%Z) ->
      assigned lens K z -> 0 < D -> query r0 r1 p weights vocab samples z = Ok st ->
      dr_count st = Z.to_nat (dp_iterations p) / Z.to_nat (dp_thin p) /\
      (Z.of_nat (dr_count st) <= (dp_iterations p - dp_burn p) / dp_thin p)%Z /\
      (forall i d, i < dr_count st -> d < D -> sumZ (map (d_buf (dr_state st) i d) (seq 0 K)) = Z.of_nat (nth d lens 0)).
    Proof.
      intros HK Hsp Hz HD E. destruct (query_history r0 r1 p weights vocab samples z st ltac:(lia) Hsp Hz E)
        as (cap & bkv & bk & l & Ec & Hcap & H1 & H2 & H3 & _ & _ & _ & H4).
      split; [exact H2|]. split.
      - unfold dmr_capacity in Ec. destruct (dp_thin p =? 0)%Z; [discriminate|].
        destruct (Z.ltb_spec ((dp_iterations p - dp_burn p) / dp_thin p) 0); [discriminate|]. apply ok_inj in Ec. lia.
      - intros i d Hi Hd. destruct (nth_error l i) as [t|] eqn:Et; [|apply nth_error_None in Et; lia].
        rewrite (H4 i t Et). apply nth_error_In in Et. rewrite Forall_forall in H3. destruct (H3 t Et) as (A & B & _).
        pose proof (sum_doc K lens (g_z t) d A Hd) as S0.
        rewrite (qsum_ext _ (fun k => inject_Z (g_dk t d k))) in S0 by (intros; rewrite B by exact Hd; reflexivity).
        rewrite sum_injZ in S0. unfold qnat, len_ in S0. apply inject_Z_injective. exact S0.
    Qed.

    Lemma query_proper_dmr weights (wd : nat -> nat -> Q) z d : model_ok -> corpus_ok z -> positive_priors weights ->
      (forall k v, k < K -> v < T -> (0 <= wd k v)%Q) -> d < D ->
      proper K T w lens (fun k v => (truncQ (wd k v * 1000000) + topic_word w lens z k v)%Z)
        (fun k => (sumZ (map (fun v => truncQ (wd k v * 1000000)%Q) (seq 0 T)) + topic_all lens z k)%Z) (alphas weights d) b.
    Proof.
      intros (HK & HT & Hb & _) (_ & _ & Hw & Hz) HP Hwd Hd.
      assert (Ht : forall k v, k < K -> v < T -> (0 <= truncQ (wd k v * 1000000))%Z).
      { intros k v Hk Hv. apply truncQ_bounds. apply Qmult_le_0_compat; [apply Hwd; assumption|lra]. }
      assert (C : forall k v, (0 <= topic_word w lens z k v)%Z) by (intros; apply count_nonneg).
      assert (C' : forall k, (0 <= topic_all lens z k)%Z) by (intros; apply count_nonneg).
      split; [intros j Hj; apply HP; assumption|].
      split; [intros n Hn; apply Qlt_le_weak, Hb, Hw, Hn|].
      split; [intros j n Hj Hn; specialize (Ht j (w n) Hj (Hw n Hn)); specialize (C j (w n)); lia|]. split.
      - intros j Hj.
        assert (0 <= sumZ (map (fun v => truncQ (wd j v * 1000000)%Q) (seq 0 T)))%Z.
        { assert (G : forall l, (forall v, In v l -> v < T) -> (0 <= sumZ (map (fun v => truncQ (wd j v * 1000000)%Q) l))%Z).
          { induction l as [|v l IH]; intros Hl; cbn [map sumZ]; [lia|]. pose proof (Ht j v Hj (Hl v (or_introl eq_refl))).
            specialize (IH (fun x Hx => Hl x (or_intror Hx))). lia. }
          apply G. intros v Hv. apply in_seq in Hv. lia. }
        specialize (C' j). split; [lia|]. pose proof (qsum_pos_all b T HT Hb).
        pose proof (injZ_nonneg (sumZ (map (fun v => truncQ (wd j v * 1000000)%Q) (seq 0 T)) + topic_all lens z j) ltac:(lia)). lra.
      - intros n Hn. exists 0. split; [lia|]. pose proof (Hb _ (Hw n Hn)).
        pose proof (Ht 0 (w n) ltac:(lia) (Hw n Hn)). specialize (C 0 (w n)).
        pose proof (injZ_nonneg (truncQ (wd 0%nat (w n) * 1000000) + topic_word w lens z 0 (w n)) ltac:(lia)). lra.
    Qed.

    (** A query returns exactly when all the samples of [iterations] sweeps fit into
        the array, which has room for those of [iterations - burnIn] sweeps. *)
    Theorem C62_query_completes_iff r0 r1 p weights vocab samples z : model_ok -> corpus_ok z -> positive_priors weights ->
      0 < samples -> (forall k v, k < K -> v < T -> (0 <= vocab k v)%Q) -> good_draws r0 -> good_draws r1 ->
      (0 <= dp_burn p <= dp_iterations p)%Z -> (0 < dp_thin p)%Z ->
      ((exists st, query r0 r1 p weights vocab samples z = Ok st) <-> (dp_iterations p / dp_thin p = (dp_iterations p - dp_burn p) / dp_thin p)%Z) /\
      ((exists st, query r0 r1 p weights vocab samples z = Ok st) \/ query r0 r1 p weights vocab samples z = Raise MemoryOOB).
    Proof.
      intros Hm Hc HP Hs Hv G0 G1 Hb Ht.
      pose proof Hm as (HK & HT & Hbb & Hsp). pose proof Hc as (HD & Hl & Hws & Hz).
      assert (Hcap : (0 <= (dp_iterations p - dp_burn p) / dp_thin p)%Z) by (apply Z.div_pos; lia).
      assert (Hle : ((dp_iterations p - dp_burn p) / dp_thin p <= dp_iterations p / dp_thin p)%Z) by (apply Z.div_le_mono; lia).
      assert (Em : Z.to_nat (dp_iterations p) / Z.to_nat (dp_thin p) = Z.to_nat (dp_iterations p / dp_thin p)) by (symmetry; apply Z2Nat.inj_div; lia).
      enough (((dp_iterations p / dp_thin p <= (dp_iterations p - dp_burn p) / dp_thin p)%Z -> exists st, query r0 r1 p weights vocab samples z = Ok st) /\
              (((dp_iterations p - dp_burn p) / dp_thin p < dp_iterations p / dp_thin p)%Z -> query r0 r1 p weights vocab samples z = Raise MemoryOOB)) as (A & B).
      { destruct (Z.le_gt_cases (dp_iterations p / dp_thin p) ((dp_iterations p - dp_burn p) / dp_thin p)) as [H|H].
        - split; [|left; exact (A H)]. split; [intros _; lia|intros _; exact (A H)].
        - specialize (B H). split; [|right; exact B]. split; [|lia]. intros (st & E). congruence. }
      unfold dmr_query, dmr_capacity. replace (dp_thin p =? 0)%Z with false by lia.
      replace ((dp_iterations p - dp_burn p) / dp_thin p <? 0)%Z with false by lia. cbn [bind]. unfold averaged.
      replace (samples =? 0) with false by lia. rewrite dmr_sample_run.
      set (wd := fun i j => (vocab i j / qnat samples)%Q).
      assert (Hwd : forall k v, k < K -> v < T -> (0 <= wd k v)%Q).
      { intros k v Hk Hv'. apply div_nonneg; [apply Hv; assumption|]. apply qnat_pos. lia. }
      set (cap := Z.to_nat ((dp_iterations p - dp_burn p) / dp_thin p)).
      pose proof (query_init K w lens z (fun k v => truncQ (wd k v * 1000000)) (fun k => sumZ (map (fun v => truncQ (wd k v * 1000000)) (seq 0 T))) Hz) as H0.
      match type of H0 with counts_ok _ _ _ _ ?x ?y _ => set (bkv := x) in *; set (bk := y) in * end.
      assert (HPr : forall d, d < D -> proper K T w lens bkv bk (alphas weights d) b) by (intros d Hd; apply query_proper_dmr; assumption).
      match goal with |- context [dmr_run K T w lens b special true cap (r_start r0) (r_u r0) (alphas weights) _ _ ?s] => set (s0 := s) end.
      destruct (dmr_run_total K T w lens b special true cap (r_start r0) (r_u r0) (alphas weights) bkv bk ltac:(lia) Hsp
           HPr (Z.to_nat (dp_burn p + 1)) (Z.to_nat (dp_burn p)) s0 G0 H0 ltac:(lia) HD ltac:(lia)) as (R1 & _).
      rewrite burn_in_div in R1. destruct (R1 ltac:(lia)) as (s1 & E1 & Hok). rewrite E1. cbn [bind].
      rewrite dmr_sample_run.
      destruct (dmr_run_total K T w lens b special true cap (r_start r1) (r_u r1) (alphas weights) bkv bk ltac:(lia) Hsp
           HPr (Z.to_nat (dp_thin p)) (Z.to_nat (dp_iterations p)) s1 G1 Hok ltac:(lia) HD ltac:(lia)) as (Q1 & Q2).
      rewrite Em in Q1, Q2. split; intros H.
      - destruct (Q1 ltac:(unfold cap; lia)) as (s2 & E2 & _). rewrite E2. eexists. reflexivity.
      - rewrite Q2 by (unfold cap; lia). reflexivity.
    Qed.
    (** With the default burn-in and thinning every query of 20 or more iterations
        overflows the array. *)
    Theorem C62_default_query_overflows r0 r1 iterations interval weights vocab samples z : model_ok -> corpus_ok z -> positive_priors weights ->
      0 < samples -> (forall k v, k < K -> v < T -> (0 <= vocab k v)%Q) -> good_draws r0 -> good_draws r1 -> (20 <= iterations)%Z ->
      query r0 r1 (dmr_plan iterations (-1) (-1) interval) weights vocab samples z = Raise MemoryOOB.
    Proof.
      intros Hm Hc HP Hs Hv G0 G1 Hi. set (p := dmr_plan iterations (-1) (-1) interval).
      assert (Hp : (dp_burn p = iterations / 4 /\ dp_iterations p = iterations + iterations / 4 /\
                    (0 < dp_thin p) /\ dp_thin p <= iterations / 4)%Z).
      { subst p. unfold dmr_plan. cbn -[Z.div Z.leb Z.mul].
        assert (forall n, 4 * n <= iterations -> n <= iterations / 4)%Z as G4 by (intros; apply Z.div_le_lower_bound; lia).
        destruct (Z.leb_spec iterations 500); [specialize (G4 5%Z ltac:(lia)); lia|]. destruct (Z.leb_spec iterations 1000).
        - specialize (G4 10%Z ltac:(lia)); lia.
        - specialize (G4 50%Z ltac:(lia)); lia. }
      destruct Hp as (P1 & P2 & P3 & P4).
      destruct (C62_query_completes_iff r0 r1 p weights vocab samples z Hm Hc HP Hs Hv G0 G1 ltac:(lia) P3) as (I1 & [E|E]); [|exact E].
      apply I1 in E. exfalso. rewrite P1, P2 in E. replace (iterations + iterations / 4 - iterations / 4)%Z with iterations in E by lia.
      assert (iterations / dp_thin p + 1 <= (iterations + iterations / 4) / dp_thin p)%Z; [|lia].
      replace (iterations / dp_thin p + 1)%Z with ((iterations + 1 * dp_thin p) / dp_thin p)%Z by (apply Z.div_add; lia).
      apply Z.div_le_mono; lia.
    Qed.

    Theorem C126_query_distributions r0 r1 p weights vocab samples z st td : model_ok -> assigned lens K z -> positive_priors weights ->
      query r0 r1 p weights vocab samples z = Ok st -> dmr_topic_dists st = Some td -> forall d, d < D -> distribution K (td d).
    Proof.
      intros (HK & HT & Hb & Hsp) Hz HP E E1 d Hd. destruct (query_history r0 r1 p weights vocab samples z st ltac:(lia) Hsp Hz E)
        as (cap & bkv & bk & l & Ec & Hcap & H1 & H2 & H3 & _ & H4 & _ & _).
      unfold dmr_topic_dists, averaged in E1. rewrite <- H1 in E1. destruct (Nat.eqb_spec (length l) 0) as [|Hne]; [discriminate|]. injection E1 as <-.
      rewrite Forall_forall in H3.
      apply (average_dist K (fun t => sample_topic K lens (alphas weights d) t d) l (d_topic (dr_state st) d) Hne).
      - intros t Ht. eapply sample_topic_dist; [apply H3; exact Ht|lia| |exact Hd]. intros k Hk. apply HP; assumption.
      - intros k. apply H4.
    Qed.

    (** ** C129 *)
    Theorem C129_query_scales_word_distributions r0 r1 p weights vocab samples z st wd wd' :
      K <= 256 -> (forall s d v, (special s d v < Z.of_nat K)%Z) -> assigned lens K z ->
      query r0 r1 p weights vocab samples z = Ok st ->
      averaged vocab samples = Some wd -> dmr_word_dists st = Some wd' ->
      dr_weights st = weights /\
      forall k v, (wd' k v * qnat (dr_count st) == wd k v * qnat samples)%Q.
    Proof.
      intros HK Hsp Hz E E1 E2. split.
      { unfold dmr_query in E. apply bind_ok in E. destruct E as (cap & Ec & E). destruct (averaged vocab samples); [|discriminate].
        apply bind_ok in E. destruct E as (s1 & _ & E). apply bind_ok in E. destruct E as (s2 & _ & E). apply ok_inj in E. subst st. reflexivity. }
      intros k v. destruct (query_history r0 r1 p weights vocab samples z st HK Hsp Hz E)
        as (cap & bkv & bk & l & _ & _ & _ & _ & _ & _ & _ & Hv & _).
      unfold dmr_word_dists, averaged in *. rewrite Hv in E2.
      destruct (Nat.eqb_spec samples 0); [discriminate|]. destruct (Nat.eqb_spec (dr_count st) 0); [discriminate|].
      injection E1 as <-. injection E2 as <-.
      assert (0 < qnat samples)%Q by (apply qnat_pos; lia). assert (0 < qnat (dr_count st))%Q by (apply qnat_pos; lia).
      field. split; lra.
    Qed.
  End Query.
End Sampler.

(** ** Concrete runs *)
(** Two documents with one feature each, and the initial weights of newModelAtRandom
    (dmr.py line 100). *)
Definition exd_X (d f : nat) : Q := if d =? 0 then 1%Q else 2%Q.
Definition exd_W (k f : nat) : Q := 1#20.
(** An optimiser that leaves the weights alone. *)
Definition exd_opt (buf : nat -> nat -> nat -> Z) (c : nat) (wt : nat -> nat -> Q) : nat -> nat -> Q := wt.
Definition exd_same (wt : nat -> nat -> Q) : Prop := wt = exd_W.

Lemma exd_model : model_ok 2 3 (fun _ => 1#10)%Q ex_special.
Proof.
  split; [lia|]. split; [lia|]. split; [intros; reflexivity|]. intros. unfold ex_special. lia.
Qed.
Lemma exd_corpus : corpus_ok 2 3 ex_w ex_lens ex_zs.
Proof.
  split; [cbn; lia|]. split; [intros n [<-|[<-|[]]]; lia|].
  split; intros n _; [unfold ex_w|unfold ex_zs]; apply Nat.mod_upper_bound; lia.
Qed.
Lemma exd_priors wt : exd_same wt -> positive_priors 2 1 ex_lens exd_X wt.
Proof.
  intros -> d k Hd Hk. cbn. unfold exd_X, exd_W. destruct d as [|d]; reflexivity.
Qed.
Lemma exd_draws q : (0 < q)%Q -> (q <= 1)%Q -> good_draws (ex_u q).
Proof. intros H1 H2 sw d i. split; assumption. Qed.
Notation exd_train p := (dmr_train 2 3 1 ex_w ex_lens exd_X (fun _ => 1#10)%Q ex_special exd_opt (fun i => ex_u (1 # Pos.of_succ_nat i)) (ex_u (1#2)) p exd_W ex_zs).
Lemma exd_rounds i : good_draws (ex_u (1 # Pos.of_succ_nat i)).
Proof.
  apply exd_draws; [reflexivity|]. unfold Qle. cbn. lia.
Qed.

Lemma exd_trained : exists st, exd_train (dmr_plan 100 (-1) (-1) (-1)) = Ok st.
Proof.
  destruct (C62_default_training_iff 2 3 1 ex_w ex_lens exd_X (fun _ => 1#10)%Q ex_special exd_opt (fun i => ex_u (1 # Pos.of_succ_nat i)) exd_same
    (ex_u (1#2)) 100 exd_W ex_zs exd_model exd_corpus exd_priors) as (A & _); try apply exd_rounds; try (apply exd_draws; lra); try lia.
  - intros buf c wt H. exact H.
  - reflexivity.
  - apply A. lia.
Qed.

(** The default plan of 49 iterations writes outside the array. *)
Theorem C62_training_in_bounds_refuted :
  exists K T F w lens X b special opt r r0 weights z,
    model_ok K T b special /\ corpus_ok K T w lens z /\ positive_priors K F lens X weights /\
    (forall buf c wt, opt buf c wt = wt) /\ good_draws r0 /\ (forall i, good_draws (r i)) /\
    dmr_train K T F w lens X b special opt r r0 (dmr_plan 49 (-1) (-1) (-1)) weights z = Raise MemoryOOB.
Proof.
  exists 2, 3, 1, ex_w, ex_lens, exd_X, (fun _ => 1#10)%Q, ex_special, exd_opt, (fun i => ex_u (1 # Pos.of_succ_nat i)), (ex_u (1#2)), exd_W, ex_zs.
  split; [exact exd_model|]. split; [exact exd_corpus|]. split; [apply exd_priors; reflexivity|]. split; [reflexivity|].
  split; [apply exd_draws; lra|]. split; [exact exd_rounds|].
  destruct (C62_default_training_iff 2 3 1 ex_w ex_lens exd_X (fun _ => 1#10)%Q ex_special exd_opt (fun i => ex_u (1 # Pos.of_succ_nat i)) exd_same
    (ex_u (1#2)) 49 exd_W ex_zs exd_model exd_corpus exd_priors) as (_ & A); try apply exd_rounds; try (apply exd_draws; lra); try lia.
  - intros buf c wt H. exact H.
  - reflexivity.
  - apply A. lia.
Qed.
Theorem C62_query_in_bounds_refuted :
  exists K T F w lens X b special r0 r1 weights vocab samples z,
    model_ok K T b special /\ corpus_ok K T w lens z /\ positive_priors K F lens X weights /\
    good_draws r0 /\ good_draws r1 /\ 0 < samples /\ (forall k, distribution T (fun v => vocab k v / qnat samples)%Q) /\
    dmr_query K T F w lens X b special r0 r1 (dmr_plan 100 (-1) (-1) (-1)) weights vocab samples z = Raise MemoryOOB.
Proof.
  exists 2, 3, 1, ex_w, ex_lens, exd_X, (fun _ => 1#10)%Q, ex_special, (ex_u (1#3)), (ex_u (1#2)), exd_W, (fun _ _ => 1)%Q, 3, ex_zs.
  split; [exact exd_model|]. split; [exact exd_corpus|]. split; [apply exd_priors; reflexivity|].
  split; [apply exd_draws; lra|]. split; [apply exd_draws; lra|]. split; [lia|].
  split. { intros k. split; [intros; vm_compute; discriminate|reflexivity]. }
  apply C62_default_query_overflows; try exact exd_model; try exact exd_corpus; try (apply exd_draws; lra); try lia; try (apply exd_priors; reflexivity).
  intros. lra.
Qed.

Example C62_in_bounds_case : exists st, exd_train (dmr_plan 100 (-1) (-1) (-1)) = Ok st /\ dmr_rounds (dmr_plan 100 (-1) (-1) (-1)) = 2.
Proof. destruct exd_trained as (st & E). exists st. split; [exact E|reflexivity]. Qed.
Example C62_computed_case :
  match exd_train (dmr_plan 3 1 1 2) with
  | Ok st => dr_count st = 2 /\ map (d_buf (dr_state st) 0 0) [0; 1] = [0; 3]%Z /\ map (d_buf (dr_state st) 1 1) [0; 1] = [0; 2]%Z
  | Raise _ => False end /\
  exd_train (dmr_plan 3 1 1 3) = Raise MemoryOOB.
Proof. vm_compute. repeat split; reflexivity. Qed.
Example C62_query_case :
  match dmr_query 2 3 1 ex_w ex_lens exd_X (fun _ => 1#10)%Q ex_special (ex_u (1#3)) (ex_u (1#2)) (dmr_plan 2 0 1 0) exd_W (fun _ _ => 1)%Q 3 ex_zs with
  | Ok st => dr_count st = 2 /\ sumZ (map (d_buf (dr_state st) 1 0) [0; 1]) = 3%Z
  | Raise _ => False end /\
  dmr_query 2 3 1 ex_w ex_lens exd_X (fun _ => 1#10)%Q ex_special (ex_u (1#3)) (ex_u (1#2)) (dmr_plan 2 1 1 0) exd_W (fun _ _ => 1)%Q 3 ex_zs = Raise MemoryOOB.
Proof. vm_compute. repeat split; reflexivity. Qed.

(** *** C126 *)
Example C126_case : exists st td wd,
  exd_train (dmr_plan 100 (-1) (-1) (-1)) = Ok st /\ dr_count st = 20 /\ tallied 2 ex_w ex_lens (d_g (dr_state st)) /\
  dmr_topic_dists st = Some td /\ dmr_word_dists st = Some wd /\
  distribution 2 (td 0) /\ distribution 2 (td 1) /\ distribution 3 (wd 0) /\ distribution 3 (wd 1).
Proof.
  destruct exd_trained as (st & E). pose proof exd_corpus as (_ & _ & _ & Hz). pose proof exd_model as (exd_K & _ & _ & Hsp).
  pose proof (C126_sample_count _ _ _ _ _ _ _ _ _ _ _ _ _ _ _ (proj2 exd_K) Hsp Hz E) as Hc.
  change (dr_count st = 20) in Hc.
  pose proof (C126_training_counts_match _ _ _ _ _ _ _ _ _ _ _ _ _ _ _ (proj2 exd_K) Hsp Hz E) as Ht.
  exists st, (fun i j => d_topic (dr_state st) i j / qnat 20)%Q, (fun i j => d_vocab (dr_state st) i j / qnat 20)%Q.
  split; [exact E|]. split; [exact Hc|]. split; [exact Ht|].
  assert (E1 : dmr_topic_dists st = Some (fun i j => d_topic (dr_state st) i j / qnat 20)%Q) by (unfold dmr_topic_dists, averaged; rewrite Hc; reflexivity).
  assert (E2 : dmr_word_dists st = Some (fun i j => d_vocab (dr_state st) i j / qnat 20)%Q) by (unfold dmr_word_dists, averaged; rewrite Hc; reflexivity).
  split; [exact E1|]. split; [exact E2|].
  destruct (C126_training_distributions 2 3 1 ex_w ex_lens exd_X (fun _ => 1#10)%Q ex_special exd_opt (fun i => ex_u (1 # Pos.of_succ_nat i)) exd_same
    (ex_u (1#2)) _ exd_W ex_zs st _ _ exd_model exd_corpus exd_priors ltac:(intros buf c wt H; exact H) ltac:(reflexivity) E E1 E2) as (A & B).
  split; [apply A; cbn; lia|]. split; [apply A; cbn; lia|]. split; apply B.
Qed.

(** A document whose features are all zero and that has one word has no positive
    weight for any topic: whatever is drawn, the counts are written before the start
    of the row. *)
Theorem C126_document_without_features_refuted :
  exists K T F w lens X b,
    model_ok K T b ex_special /\ corpus_ok K T w lens (fun _ => 0) /\ (forall d f, (0 <= X d f)%Q) /\
    forall opt r r0 iterations, (4 <= iterations)%Z ->
      dmr_train K T F w lens X b ex_special opt r r0 (dmr_plan iterations (-1) (-1) (-1)) exd_W (fun _ => 0) = Raise MemoryOOB.
Proof.
  exists 2, 3, 1, (fun _ => 1), [1], (fun _ _ => 0%Q), (fun _ => 1#10)%Q.
  split; [exact exd_model|]. split.
  { split; [cbn; lia|]. split; [intros n [<-|[]]; lia|]. split; intros n _; lia. }
  split; [intros; lra|]. intros opt r r0 iterations Hi. unfold dmr_train. cbn [length Nat.eqb existsb].
  set (p := dmr_plan iterations (-1) (-1) (-1)).
  assert (Hp : (dp_burn p = iterations / 4 /\ dp_iterations p - dp_burn p = iterations /\ 0 < dp_thin p)%Z).
  { subst p. unfold dmr_plan. cbn -[Z.div Z.leb Z.mul]. destruct (Z.leb_spec iterations 500), (Z.leb_spec iterations 1000); lia. }
  destruct Hp as (P1 & P2 & P3). change (65536 <=? Z.of_nat 1)%Z with false. cbn [orb].
  unfold dmr_capacity. rewrite P2. replace (dp_thin p =? 0)%Z with false by lia.
  replace (iterations / dp_thin p <? 0)%Z with false by (assert (0 <= iterations / dp_thin p)%Z by (apply Z.div_pos; lia); lia).
  cbn [bind]. unfold dmr_sample. rewrite P1.
  assert (1 <= iterations / 4)%Z by (apply Z.div_le_lower_bound; lia).
  destruct (Z.to_nat (iterations / 4)) as [|n] eqn:En; [lia|]. rewrite seq_cons. cbn [fold_left bind].
  match goal with |- bind (fold_left _ _ ?x) _ = _ => assert (x = Raise MemoryOOB) as -> end.
  { unfold dmr_step. 
    assert (E : forall u start s, (forall d k, g_dk s d k = if (d =? 0) && (k =? 0) then 1%Z else 0%Z) -> (forall k, (0 <= g_k s k)%Z) -> g_k s 0 = 1%Z -> (g_z s 0 = 0) ->
      dmr_sweep 2 3 (fun _ => 1) [1] (fun _ => (1#10)%Q) ex_special false start u (dmr_alphas 1 (fun _ _ => 0%Q) exd_W) 0 s = Raise MemoryOOB).
    { intros u start s H1 H2 H3 H4. unfold dmr_sweep. cbn [length seq fold_left bind fst snd]. unfold doc_sweep, visits, len_. cbn [nth positions combine seq fold_left fst snd bind].
      replace (0 + (start 0 0 + 1) mod 1) with 0 by (rewrite Nat.mod_1_r; reflexivity).
      unfold visit. rewrite H4. unfold draw_topic.
      set (s1 := mkG _ _ _ _).
      assert (W : forall j, j < 2 -> exists q, weight 3 (dmr_alphas 1 (fun _ _ => 0%Q) exd_W 0) (fun _ => (1#10)%Q) s1 0 1 j = Some q /\ (q == 0)%Q).
      { intros j Hj. unfold weight. set (den := (inject_Z (g_k s1 j) + _)%Q).
        assert (0 < den)%Q.
        { subst den. assert (0 <= g_k s1 j)%Z.
          { subst s1. cbn [g_k]. unfold inc1, delta. specialize (H2 j). destruct j as [|j]; cbn; [rewrite H3|]; lia. }
          pose proof (injZ_nonneg _ H0). change (qsum (fun _ : nat => (1#10)%Q) (seq 0 3)) with (3#10)%Q || idtac. 
          assert (0 < qsum (fun _ : nat => (1#10)%Q) (seq 0 3))%Q by reflexivity. lra. }
        destruct (Qeq_bool den 0) eqn:Ed; [apply Qeq_bool_iff in Ed; lra|]. eexists. split; [reflexivity|].
        assert (g_dk s1 0 j = 0%Z) as ->. { subst s1. cbn [g_dk]. rewrite inc2_at, H1. destruct (Nat.eqb_spec j 0); cbn; lia. }
        unfold dmr_alphas. cbn. unfold Qdiv. ring. }
      destruct (W 0 ltac:(lia)) as (q0 & W0 & Z0). destruct (W 1 ltac:(lia)) as (q1 & W1 & Z1).
      cbn [seq map]. rewrite W0, W1. cbn [all_some].
      cbn [walk].
      replace (Qle_bool _ 0) with true; [reflexivity|].
      symmetry. apply Qle_bool_iff. cbn. rewrite Z0, Z1. apply Qle_lteq. right. ring. }
    rewrite E; [reflexivity|..]; intros; cbn; try lia; try reflexivity.
    - rewrite inc2_at. destruct (Nat.eqb_spec d 0), (Nat.eqb_spec k 0); cbn; reflexivity.
    - destruct k; cbn; lia. }
  clear. generalize (seq 1 n). intros l. induction l as [|x l IH]; [reflexivity|exact IH].
Qed.

(** *** C127 *)
Theorem C127_counted_samples_stored_refuted :
  exists K T F w lens X b special opt r r0 weights z st,
    model_ok K T b special /\ corpus_ok K T w lens z /\ (forall d, d < length lens -> 0 < nth d lens 0) /\
    dmr_train K T F w lens X b special opt r r0 (dmr_plan 100 (-1) (-1) (-1)) weights z = Ok st /\
    dr_count st = 20 /\ (forall i d k, 10 <= i < 20 -> d_buf (dr_state st) i d k = 0%Z).
Proof.
  destruct exd_trained as (st & E). pose proof exd_corpus as (_ & _ & _ & Hz). pose proof exd_model as (exd_K & _ & _ & Hsp).
  exists 2, 3, 1, ex_w, ex_lens, exd_X, (fun _ => 1#10)%Q, ex_special, exd_opt, (fun i => ex_u (1 # Pos.of_succ_nat i)), (ex_u (1#2)), exd_W, ex_zs, st.
  split; [exact exd_model|]. split; [exact exd_corpus|]. split.
  { intros [|[|d]] Hd; cbn in *; lia. }
  split; [exact E|].
  destruct (C127_only_last_round_stored _ _ _ _ _ _ _ _ _ _ _ _ _ _ _ exd_K Hsp Hz E) as (A & _ & B).
  { unfold dmr_rounds. vm_compute. lia. }
  change (dr_count st = 20) in A. split; [exact A|]. intros i d k Hi. apply B.
  change (Z.to_nat (dp_interval (dmr_plan 100 (-1) (-1) (-1))) / Z.to_nat (dp_thin (dmr_plan 100 (-1) (-1) (-1)))) with 10. lia.
Qed.
Example C127_one_round_case : exists st,
  exd_train (dmr_plan 50 (-1) (-1) (-1)) = Ok st /\
  (forall i d, i < dr_count st -> d < 2 -> sumZ (map (d_buf (dr_state st) i d) (seq 0 2)) = Z.of_nat (nth d ex_lens 0)).
Proof.
  destruct (C62_default_training_iff 2 3 1 ex_w ex_lens exd_X (fun _ => 1#10)%Q ex_special exd_opt (fun i => ex_u (1 # Pos.of_succ_nat i)) exd_same
    (ex_u (1#2)) 50 exd_W ex_zs exd_model exd_corpus exd_priors) as (A & _); try apply exd_rounds; try (apply exd_draws; lra); try lia.
  - intros buf c wt H. exact H.
  - reflexivity.
  - destruct (A ltac:(lia)) as (st & E). exists st. split; [exact E|]. pose proof exd_corpus as (_ & _ & _ & Hz). pose proof exd_model as (exd_K & _ & _ & Hsp).
    apply (C127_all_stored_iff_one_round _ _ _ _ _ _ _ _ _ _ _ _ _ _ _ exd_K Hsp Hz E).
    + exists 0. cbn. lia.
    + left. vm_compute. lia.
Qed.

(** *** C129 *)
Theorem C129_query_keeps_word_distributions_refuted :
  exists K T F w lens X b special r0 r1 p weights vocab samples z st wd wd',
    model_ok K T b special /\ corpus_ok K T w lens z /\ positive_priors K F lens X weights /\
    dmr_query K T F w lens X b special r0 r1 p weights vocab samples z = Ok st /\
    averaged vocab samples = Some wd /\ dmr_word_dists st = Some wd' /\
    (forall k, distribution T (wd k)) /\ (qsum (wd' 0%nat) (seq 0 T) == 3#2)%Q.
Proof.
  destruct (dmr_query 2 3 1 ex_w ex_lens exd_X (fun _ => 1#10)%Q ex_special (ex_u (1#3)) (ex_u (1#2)) (dmr_plan 2 0 1 0) exd_W (fun _ _ => 1)%Q 3 ex_zs) as [st|e] eqn:E.
  2:{ vm_compute in E. discriminate. }
  pose proof exd_corpus as (HD & _ & _ & Hz). pose proof exd_model as (exd_K & _ & _ & Hsp).
  destruct (C62_query_in_bounds _ _ _ _ _ _ _ _ _ _ _ _ _ _ _ _ exd_K Hsp Hz HD E) as (Hc & _).
  change (dr_count st = 2) in Hc.
  pose (wd := fun i j : nat => ((fun _ _ : nat => 1) i j / qnat 3)%Q). pose (wd' := fun i j => (d_vocab (dr_state st) i j / qnat 2)%Q).
  assert (E1 : averaged (fun _ _ => 1)%Q 3 = Some wd) by reflexivity.
  assert (E2 : dmr_word_dists st = Some wd') by (unfold dmr_word_dists, averaged; rewrite Hc; reflexivity).
  destruct (C129_query_scales_word_distributions _ _ _ _ _ _ _ _ _ _ _ _ _ _ _ _ _ _ (proj2 exd_K) Hsp Hz E E1 E2) as (_ & G).
  exists 2, 3, 1, ex_w, ex_lens, exd_X, (fun _ => 1#10)%Q, ex_special, (ex_u (1#3)), (ex_u (1#2)), (dmr_plan 2 0 1 0), exd_W, (fun _ _ => 1)%Q, 3, ex_zs, st, wd, wd'.
  split; [exact exd_model|]. split; [exact exd_corpus|]. split; [apply exd_priors; reflexivity|]. split; [exact E|].
  split; [exact E1|]. split; [exact E2|]. split.
  - intros k. split; [intros; vm_compute; discriminate|reflexivity].
  - rewrite (qsum_ext _ (fun _ => 1#2)%Q); [reflexivity|]. intros v _. specialize (G 0 v). rewrite Hc in G.
    unfold wd in G. change (qnat 2) with 2%Q in G. change (qnat 3) with 3%Q in G. cbn beta in G. assert (H3 : (1 / 3 * 3 == 1)%Q) by reflexivity. rewrite H3 in G. lra.
Qed.

(** With negative features (or after the optimiser has made weights negative) the
    reported topic distributions have negative entries. *)
Theorem C126_negative_priors_refuted :
  exists K T F w lens X b opt r r0 p z st td,
    model_ok K T b ex_special /\ corpus_ok K T w lens z /\ good_draws r0 /\ (forall i, good_draws (r i)) /\
    dmr_train K T F w lens X b ex_special opt r r0 p exd_W z = Ok st /\
    dmr_topic_dists st = Some td /\ (td 0%nat 1%nat < 0)%Q.
Proof.
  destruct (dmr_train 2 3 1 ex_w ex_lens (fun _ _ => -1)%Q (fun _ => 1#10)%Q ex_special exd_opt (fun i => ex_u (1#2)) (ex_u (1#2)) (dmr_plan 3 1 1 2) exd_W ex_zs)
    as [st|e] eqn:E; [|vm_compute in E; discriminate].
  pose proof exd_corpus as (HD & _ & _ & Hz). pose proof exd_model as (exd_K & _ & _ & Hsp).
  pose proof (C126_sample_count _ _ _ _ _ _ _ _ _ _ _ _ _ _ _ (proj2 exd_K) Hsp Hz E) as Hc. change (dr_count st = 2) in Hc.
  exists 2, 3, 1, ex_w, ex_lens, (fun _ _ => -1)%Q, (fun _ => 1#10)%Q, exd_opt, (fun i => ex_u (1#2)), (ex_u (1#2)), (dmr_plan 3 1 1 2), ex_zs, st, (fun i j => d_topic (dr_state st) i j / qnat 2)%Q.
  split; [exact exd_model|]. split; [exact exd_corpus|]. split; [apply exd_draws; lra|]. split; [intros _; apply exd_draws; lra|].
  split; [exact E|]. split; [unfold dmr_topic_dists, averaged; rewrite Hc; reflexivity|].
  assert (G : match dmr_train 2 3 1 ex_w ex_lens (fun _ _ => -1)%Q (fun _ => 1#10)%Q ex_special exd_opt (fun i => ex_u (1#2)) (ex_u (1#2)) (dmr_plan 3 1 1 2) exd_W ex_zs
              with Ok st => Qred (d_topic (dr_state st) 0%nat 1%nat) | Raise _ => 0%Q end = (-1 # 29)%Q) by (vm_compute; reflexivity).
  rewrite E in G. rewrite <- (Qred_correct (d_topic (dr_state st) 0%nat 1%nat)), G. reflexivity.
Qed.

Print Assumptions C62_training_in_bounds.
Print Assumptions C62_training_completes_iff.
Print Assumptions C62_default_training_iff.
Print Assumptions C126_training_counts_match.
Print Assumptions C126_sample_count.
Print Assumptions C126_training_distributions.
Print Assumptions C127_only_last_round_stored.
Print Assumptions C127_all_stored_iff_one_round.
Print Assumptions C62_query_in_bounds.
Print Assumptions C62_query_completes_iff.
Print Assumptions C62_default_query_overflows.
Print Assumptions C126_query_distributions.
Print Assumptions C129_query_scales_word_distributions.
Print Assumptions C62_training_in_bounds_refuted.
Print Assumptions C62_query_in_bounds_refuted.
Print Assumptions C126_document_without_features_refuted.
Print Assumptions C127_counted_samples_stored_refuted.
Print Assumptions C129_query_keeps_word_distributions_refuted.
Print Assumptions C126_negative_priors_refuted.
