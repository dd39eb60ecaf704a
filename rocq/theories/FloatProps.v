(** * What rounding to doubles changes and what not (C141-C143). *)
From Coq Require Import List ZArith QArith Qreals Arith Bool Reals Permutation Lia Lra.
From Flocq Require Import Core.Core.
From Verif Require Import Base SparseModel DatasetModel PartModel PartSpec PartProofs PartProps SplitModel SplitProofs SplitProps EvalModel EvalSpec
  EvalProofs EvalGroups EvalProps FloatModel FloatProofs.
Import ListNotations.
Open Scope R_scope.

(** ** C141: folds *)

(** Splits computed in doubles are the exact ones. *)
Theorem C141_folds_are_exact : forall D f n : Z,
  (0 <= D < 2 ^ 53)%Z -> (n <= 2 ^ 53)%Z ->
  cross_valid_split_indices_f D f n = cross_valid_split_indices D f n.
Proof. intros D f n HD Hn. apply split_indices_exact; assumption. Qed.

(** So, in particular, a fold partitions the corpus into parts of the right sizes. *)
Theorem C141_fold_partitions_corpus : forall D f n : Z,
  (1 <= D < 2 ^ 53)%Z -> (1 < n <= 2 ^ 53)%Z -> (f < n)%Z ->
  exists train query,
    cross_valid_split_indices_f D f n = Ok (train, query) /\
    Permutation (train ++ query) (zrange 0 D) /\
    ((Z.of_nat (length query) - 1) * n < D <= Z.of_nat (length query) * n)%Z.
Proof.
  intros D f n HD Hn Hf. rewrite C141_folds_are_exact by lia. apply C01_fold_partitions_corpus; lia.
Qed.

(** Beyond, they need not be. *)
Lemma rd_tie : rd (IZR (2 ^ 53 + 1)) = IZR (2 ^ 53).
Proof.
  unfold rd. assert (cexp radix2 dexp (IZR (2 ^ 53 + 1)) = 1%Z) as Hc.
  { unfold cexp. rewrite (mag_unique radix2 _ 54).
    - reflexivity.
    - rewrite Rabs_pos_eq by (apply IZR_le; lia). change (54 - 1)%Z with 53%Z.
      split; [apply (IZR_le (2 ^ 53)); lia|apply (IZR_lt _ (2 ^ 54)); lia]. }
  unfold round, scaled_mantissa, F2R. rewrite Hc. cbn [Fnum Fexp]. change (bpow radix2 (-(1))) with (/ 2). change (bpow radix2 1) with 2.
  assert (ZnearestE (IZR (2 ^ 53 + 1) * / 2) = (2 ^ 52)%Z) as ->.
  { unfold Znearest. assert (Zfloor (IZR (2 ^ 53 + 1) * / 2) = (2 ^ 52)%Z) as ->.
    { apply Zfloor_imp. rewrite !plus_IZR. change (IZR (2 ^ 53)) with (IZR (2 * 2 ^ 52)). rewrite mult_IZR. lra. }
    rewrite Rcompare_Eq; [reflexivity|].
    rewrite !plus_IZR. change (IZR (2 ^ 53)) with (IZR (2 * 2 ^ 52)). rewrite mult_IZR. lra. }
  rewrite <- mult_IZR. reflexivity.
Qed.

Example C141_beyond : exists D n, (2 ^ 53 < D)%Z /\ ceil_div_f D n <> ceil_div D n.
Proof.
  exists (2 ^ 53 + 1)%Z, 1%Z. split; [lia|]. unfold ceil_div_f. replace (IZR (2 ^ 53 + 1) / IZR 1) with (IZR (2 ^ 53 + 1)) by (unfold Rdiv; rewrite Rinv_1; ring).
  rewrite rd_tie, Zceil_IZR. vm_compute. discriminate.
Qed.

Example C141_case : cross_valid_split_indices_f 7 2 3 = Ok ([2; 3; 4; 5], [6; 0; 1])%Z.
Proof. rewrite C141_folds_are_exact by lia. reflexivity. Qed.

(** ** C142: metrics *)

Lemma near_frac a b : (a <= b)%nat -> (0 < b)%nat -> near u (rd (INR a / INR b)) (INR a / INR b).
Proof.
  intros Hab Hb. assert (0 < INR b) by (apply (lt_INR 0); exact Hb). assert (0 <= INR a) by apply pos_INR.
  assert (INR a <= INR b) by (apply le_INR; exact Hab).
  assert (Hq : 0 <= INR a / INR b <= 1).
  { split; [apply Rmult_le_pos; [lra|left; apply Rinv_0_lt_compat; lra]|]. apply Rmult_le_reg_r with (INR b); [lra|].
    unfold Rdiv. rewrite Rmult_assoc, Rinv_l by lra. lra. }
  split; [apply (rd_bounds _ 0 1); [lia|lia|exact Hq]|].
  pose proof u_pos. rewrite <- (Rmult_1_r u) at 1. apply rd_error; [rewrite Rabs_pos_eq by lra; lra|lra].
Qed.

Lemma Q2R_qnat n : Q2R (qnat n) = INR n.
Proof. unfold qnat. rewrite Q2R_inject, INR_IZR_INZ. reflexivity. Qed.

Lemma Q2R_frac a b : (0 < b)%nat -> Q2R (inject_Z (Z.of_nat a) / inject_Z (Z.of_nat b)) = INR a / INR b.
Proof.
  intros Hb. rewrite Q2R_div; [rewrite !Q2R_inject, !INR_IZR_INZ; reflexivity|].
  pose proof (qnat_pos b Hb) as H. unfold qnat in H. intros E. rewrite E in H. discriminate H.
Qed.

(** The exact and the rounded loop run in step. *)
Lemma sum_in_step {A} (f : A -> res Q) (g : A -> res R) delta l s :
  (forall a q, In a l -> f a = Ok q -> exists x, g a = Ok x /\ near delta x (Q2R q)) ->
  sum_res f l = Ok s ->
  exists xs ys, mapM g l = Ok xs /\ Forall2 (near delta) xs ys /\ rsum ys = Q2R s.
Proof.
  intros H. revert s. induction l as [|a l IH]; intros s Hs; cbn [sum_res] in Hs.
  - injection Hs as <-. exists [], []. split; [reflexivity|]. split; [constructor|]. unfold rsum, Q2R. cbn. lra.
  - apply bind_ok in Hs as (q & Hq & Hs). apply bind_ok in Hs as (s' & Hs' & [= <-]).
    destruct (H a q (or_introl eq_refl) Hq) as (x & Hx & Hn).
    destruct (IH ltac:(intros; eapply H; [right; eassumption|assumption]) s' Hs') as (xs & ys & Hxs & HF & E).
    exists (x :: xs), (Q2R q :: ys). cbn [mapM]. rewrite Hx. cbn [bind]. rewrite Hxs. cbn [bind].
    split; [reflexivity|]. split; [constructor; assumption|]. unfold rsum in *. cbn [fold_right]. rewrite E, Q2R_plus. reflexivity.
Qed.

Lemma prec_in_step recv expt e q : prec_at recv expt e = Ok q ->
  exists x, prec_at_f recv expt e = Ok x /\ near u x (Q2R q).
Proof.
  unfold prec_at, prec_at_f, qdiv, fdiv. set (s := firstn _ recv). destruct (Nat.eqb_spec (length (pyset s)) 0) as [|Hn]; [discriminate|].
  intros [= <-]. eexists. split; [reflexivity|]. rewrite Q2R_frac by lia. apply near_frac; [apply common_le_l|lia].
Qed.

Lemma average_in_step argsort d q : fst d <> [] -> (Z.of_nat (length (fst d)) <= 2 ^ 53)%Z -> average_prec argsort d = Ok q ->
  exists x, average_prec_f argsort d = Ok x /\ near ((INR (length (fst d)) + 2) * u) x (Q2R q).
Proof.
  destruct d as [expt row]. cbn [fst snd]. intros Hne Hb H. unfold average_prec in H.
  destruct expt as [|e0 ex] eqn:Eex; [congruence|]. rewrite <- Eex in *. clear e0 ex Eex.
  apply bind_ok in H as (s & Hs & [= <-]).
  destruct (sum_in_step _ (prec_at_f (ranking argsort row) expt) u _ _ (fun a q' _ Hq => prec_in_step _ _ _ _ Hq) Hs) as (xs & ys & Hxs & HF & E).
  unfold average_prec_f. cbn [fst snd]. rewrite Hxs. cbn [bind]. eexists. split; [reflexivity|].
  pose proof (mapM_length _ _ _ Hxs) as HL. assert (0 < length expt)%nat by (destruct expt; [congruence|cbn; lia]).
  destruct (fmean u xs ys (length expt) HF) as [G1 G2]; [lia|lia|exact Hb|left; apply u_pos|].
  split; [exact G1|]. rewrite Q2R_div.
  - fold (qnat (length expt)). rewrite Q2R_qnat, <- E. eapply Rle_trans; [exact G2|]. lra.
  - pose proof (qnat_pos (length expt) H) as P. unfold qnat in P. intros E0. rewrite E0 in P. discriminate P.
Qed.

Lemma sum_linked argsort docs s : sum_res (average_prec argsort) docs = Ok s ->
  exists s', sum_res (average_prec argsort) (linked docs) = Ok s' /\ (s == s')%Q.
Proof.
  revert s. induction docs as [|d docs IH]; intros s H; cbn [sum_res linked filter] in *.
  - exists 0%Q. injection H as <-. split; reflexivity.
  - apply bind_ok in H as (q & Hq & H). apply bind_ok in H as (s1 & Hs & [= <-]). destruct (IH s1 Hs) as (s' & Hs' & E).
    destruct (fst d) as [|e ex] eqn:Ed.
    + exists s'. split; [exact Hs'|]. destruct d as [expt row]. cbn in Ed. subst expt. cbn in Hq. injection Hq as <-. rewrite E. ring.
    + cbn [sum_res]. rewrite Hq. cbn [bind]. unfold linked in Hs'. rewrite Hs'. cbn [bind]. exists (q + s')%Q. split; [reflexivity|]. rewrite E. reflexivity.
Qed.

Lemma linked_length docs : (length (linked docs) <= length docs)%nat.
Proof. unfold linked. induction docs as [|d docs IH]; cbn; [lia|]. destruct (fst d); cbn; lia. Qed.

Lemma u_pow : u = / 2 ^ 53.
Proof. rewrite u_val. f_equal. ring. Qed.

(** Whenever the exact mean average precision exists, so does the computed one; it lies between zero
    and one and is close, with documents of at most [L] links. *)
Theorem C142_map_in_doubles : forall argsort (docs : list doc) q L,
  (Z.of_nat (length docs) <= 2 ^ 53)%Z -> (Z.of_nat L <= 2 ^ 53)%Z ->
  (forall d, In d docs -> (length (fst d) <= L)%nat) ->
  mean_average_prec argsort docs = Ok q ->
  exists x, mean_average_prec_f argsort docs = Ok x /\ 0 <= x <= 1 /\
    Rabs (x - Q2R q) <= (INR L + INR (length docs) + 3) * / 2 ^ 53.
Proof.
  intros argsort docs q L HD HL HdL H. unfold mean_average_prec in H. apply bind_ok in H as (s & Hs & H).
  destruct (Nat.eqb_spec (length docs) 0) as [|Hn]; [discriminate|]. injection H as <-.
  destruct (sum_linked _ _ _ Hs) as (s' & Hs' & E). pose proof u_pos as Hu. pose proof (pos_INR L) as HL0.
  assert (HA : forall d q, In d (linked docs) -> average_prec argsort d = Ok q ->
    exists x, average_prec_f argsort d = Ok x /\ near ((INR L + 2) * u) x (Q2R q)).
  { intros d q Hin Hq. apply filter_In in Hin as [Hd Hne]. pose proof (HdL d Hd) as Hl.
    destruct (average_in_step argsort d q) as (x & Hx & [N1 N2]); [intros E0; rewrite E0 in Hne; discriminate|lia|exact Hq|].
    exists x. split; [exact Hx|]. split; [exact N1|]. eapply Rle_trans; [exact N2|].
    apply Rmult_le_compat_r; [lra|]. apply le_INR in Hl. lra. }
  destruct (sum_in_step _ (average_prec_f argsort) ((INR L + 2) * u) _ _ HA Hs') as (xs & ys & Hxs & HF & Ey).
  unfold mean_average_prec_f. rewrite Hxs. cbn [bind]. destruct (Nat.eqb_spec (length docs) 0); [lia|].
  eexists. split; [reflexivity|]. pose proof (mapM_length _ _ _ Hxs) as Hx. pose proof (linked_length docs) as Hll.
  destruct (fmean ((INR L + 2) * u) xs ys (length docs) HF) as [G1 G2]; [lia|lia|exact HD|apply Rmult_le_pos; lra|].
  split; [exact G1|]. rewrite Q2R_div.
  - fold (qnat (length docs)). rewrite Q2R_qnat, (Qeq_eqR _ _ E), <- Ey. eapply Rle_trans; [exact G2|].
    rewrite <- u_pow. lra.
  - pose proof (qnat_pos (length docs) ltac:(lia)) as P. unfold qnat in P. intros E0. rewrite E0 in P. discriminate P.
Qed.

(** It fails when the exact one does. *)
Lemma mapM_in_step {A} (f : A -> res Q) (g : A -> res R) l :
  (forall a e, In a l -> f a = Raise e -> g a = Raise e) -> (forall a q, In a l -> f a = Ok q -> exists x, g a = Ok x) ->
  forall e, sum_res f l = Raise e -> mapM g l = Raise e.
Proof.
  intros H1 H2. induction l as [|a l IH]; intros e H; cbn [sum_res mapM] in *; [discriminate|].
  destruct (f a) as [q|e'] eqn:Ef; cbn [bind] in H.
  - destruct (H2 a q (or_introl eq_refl) Ef) as (x & ->). cbn [bind].
    destruct (sum_res f l) as [s|e'] eqn:Es; cbn [bind] in H; [discriminate|]. injection H as ->.
    rewrite (IH (fun a e Ha => H1 a e (or_intror Ha)) (fun a q Ha => H2 a q (or_intror Ha)) e eq_refl). reflexivity.
  - injection H as ->. rewrite (H1 a e (or_introl eq_refl) Ef). reflexivity.
Qed.

Lemma prec_fails recv expt e x : prec_at recv expt e = Raise x -> prec_at_f recv expt e = Raise x.
Proof. unfold prec_at, prec_at_f, qdiv, fdiv. destruct (_ =? 0)%nat; congruence. Qed.

Lemma average_fails argsort d e : fst d <> [] -> average_prec argsort d = Raise e -> average_prec_f argsort d = Raise e.
Proof.
  destruct d as [expt row]. unfold average_prec, average_prec_f. cbn [fst snd]. intros Hne H.
  destruct expt as [|e0 ex] eqn:E; [congruence|]. rewrite <- E in *. clear E.
  destruct (sum_res _ _) as [s|e'] eqn:Es; cbn [bind] in H; [discriminate|]. injection H as ->.
  rewrite (mapM_in_step _ (prec_at_f (ranking argsort row) expt) _ (fun a e' _ => prec_fails _ _ a e')
    (fun a q _ Hq => let '(ex_intro _ x (conj Hx _)) := prec_in_step _ _ a q Hq in ex_intro _ x Hx) _ Es). reflexivity.
Qed.

Lemma sum_linked_fails argsort docs e : sum_res (average_prec argsort) docs = Raise e ->
  sum_res (average_prec argsort) (linked docs) = Raise e.
Proof.
  revert e. induction docs as [|d docs IH]; intros e H; cbn [sum_res linked filter] in *; [discriminate|].
  destruct (fst d) as [|l0 l1] eqn:Ed.
  - destruct d as [expt row]. cbn in Ed. subst. cbn [average_prec bind] in H.
    destruct (sum_res _ docs) as [s|e'] eqn:Es; cbn [bind] in H; [discriminate|]. injection H as ->. apply (IH e eq_refl).
  - cbn [sum_res]. destruct (average_prec argsort d); cbn [bind] in *; [|exact H].
    destruct (sum_res _ docs) as [s|e'] eqn:Es; cbn [bind] in H; [discriminate|]. injection H as ->.
    specialize (IH e eq_refl). unfold linked in IH. rewrite IH. reflexivity.
Qed.

Theorem C142_map_fails_alike : forall argsort (docs : list doc) e,
  (forall d, In d docs -> Z.of_nat (length (fst d)) <= 2 ^ 53)%Z ->
  mean_average_prec argsort docs = Raise e -> mean_average_prec_f argsort docs = Raise e.
Proof.
  intros argsort docs e HL H. unfold mean_average_prec, mean_average_prec_f in *.
  assert (G : forall d q, In d (linked docs) -> average_prec argsort d = Ok q -> exists x, average_prec_f argsort d = Ok x).
  { intros d q Hin Hq. apply filter_In in Hin as [Hd Hne].
    destruct (average_in_step argsort d q) as (x & Hx & _); [intros E0; rewrite E0 in Hne; discriminate|apply HL, Hd|exact Hq|eauto]. }
  destruct (sum_res _ docs) as [s|e'] eqn:Es; cbn [bind] in H.
  - destruct (Nat.eqb_spec (length docs) 0) as [En|]; [|discriminate].
    destruct docs; [|discriminate]. injection H as <-. reflexivity.
  - injection H as ->. apply sum_linked_fails in Es.
    assert (F : forall d e, In d (linked docs) -> average_prec argsort d = Raise e -> average_prec_f argsort d = Raise e).
    { intros d e1 Hin. apply filter_In in Hin as [_ Hne]. apply average_fails. intros E0; rewrite E0 in Hne; discriminate. }
    rewrite (mapM_in_step _ (average_prec_f argsort) _ F G _ Es). reflexivity.
Qed.

(** Perfect rankings give exactly the double nearest to the fraction of documents that have links,
    so one if all have. *)
Lemma ones_repeat {A} (g : A -> res R) l : (forall a, In a l -> g a = Ok 1) -> mapM g l = Ok (repeat 1 (length l)).
Proof.
  induction l as [|a l IH]; intros H; cbn [mapM length repeat]; [reflexivity|].
  rewrite (H a (or_introl eq_refl)). cbn [bind]. rewrite IH by (intros; apply H; right; assumption). reflexivity.
Qed.

Lemma prec_one recv expt e : perfect expt recv -> In e expt -> prec_at_f recv expt e = Ok 1.
Proof.
  intros Hp He. destruct (prec_at_perfect recv expt e Hp He) as (q & Hq & E1).
  unfold prec_at, prec_at_f, qdiv, fdiv in *. set (s := firstn _ recv) in *.
  destruct (Nat.eqb_spec (length (pyset s)) 0) as [|Hn]; [discriminate|]. injection Hq as <-. f_equal.
  rewrite <- Q2R_frac by lia. rewrite (Qeq_eqR _ _ E1). replace (Q2R 1) with 1 by (unfold Q2R; cbn; lra). apply rd_1.
Qed.

Theorem C142_map_of_perfect_ranking : forall argsort (docs : list doc), sorts argsort -> docs <> [] ->
  (Z.of_nat (length docs) <= 2 ^ 53)%Z ->
  (forall d, In d docs -> (Z.of_nat (length (fst d)) <= 2 ^ 53)%Z /\ NoDup (map fst (snd d)) /\ scores_favour (fst d) (snd d)) ->
  mean_average_prec_f argsort docs = Ok (rd (INR (length (with_links docs)) / INR (length docs))) /\
  ((forall d, In d docs -> fst d <> []) -> mean_average_prec_f argsort docs = Ok 1).
Proof.
  intros argsort docs Hs Hne HD H.
  assert (G : mean_average_prec_f argsort docs = Ok (rd (INR (length (with_links docs)) / INR (length docs)))).
  { unfold mean_average_prec_f. rewrite (ones_repeat (average_prec_f argsort) (linked docs)).
    - cbn [bind]. destruct (Nat.eqb_spec (length docs) 0); [destruct docs; [congruence|discriminate]|].
      unfold fsum. change 0 with (INR 0) at 1. rewrite fsum_ones by (pose proof (linked_length docs); lia). reflexivity.
    - intros d Hin. apply filter_In in Hin as [Hd Hl]. destruct (H d Hd) as (HL & HN & HS). unfold average_prec_f.
      rewrite (ones_repeat (prec_at_f _ _) (fst d)).
      + cbn [bind]. rewrite fmean_ones; [reflexivity| |exact HL]. destruct (fst d); [discriminate|cbn; lia].
      + intros e He. apply prec_one; [apply scores_perfect; assumption|exact He]. }
  split; [exact G|]. intros Hall. rewrite G. f_equal.
  assert (with_links docs = docs) as ->.
  { clear -Hall. unfold with_links. induction docs as [|d docs IH]; [reflexivity|]. cbn.
    pose proof (Hall d (or_introl eq_refl)). destruct (fst d); [congruence|]. rewrite IH; [reflexivity|]. intros; apply Hall; right; assumption. }
  unfold Rdiv. rewrite Rinv_r; [apply rd_1|]. apply not_0_INR. destruct docs; [congruence|discriminate].
Qed.

(** Mean reciprocal rank. *)
Lemma rsum_app a b : rsum (a ++ b) = rsum a + rsum b.
Proof. unfold rsum. induction a as [|x a IH]; cbn [app fold_right]; [ring|]. rewrite IH. ring. Qed.

Lemma rsum_repeat x n : rsum (repeat x n) = INR n * x.
Proof. induction n as [|n IH]; [unfold rsum; cbn; ring|]. rewrite S_INR. cbn [repeat]. unfold rsum in *. cbn [fold_right]. rewrite IH. ring. Qed.

Lemma map_repeat_const {A B} (f : A -> B) x n : map f (repeat x n) = repeat (f x) n.
Proof. induction n as [|n IH]; cbn; [reflexivity|rewrite IH; reflexivity]. Qed.

Lemma mrr_ranks_step recv : forall r expt,
  length (mrr_ranks r recv expt) = snd (mrr_loop r recv expt) /\
  rsum (map (fun k => 1 / INR k) (mrr_ranks r recv expt)) = Q2R (fst (mrr_loop r recv expt)) /\
  forall k, In k (mrr_ranks r recv expt) -> (1 <= k)%nat.
Proof.
  assert (Z0 : rsum (map (fun k : nat => 1 / INR k) []) = Q2R 0) by (unfold rsum, Q2R; cbn; lra).
  induction recv as [|x recv IH]; intros r expt; cbn [mrr_ranks mrr_loop]; [repeat split; [exact Z0|intros k []]|].
  destruct expt as [|e ex]; [repeat split; [exact Z0|intros k []]|].
  destruct (mrr_scan x (e :: ex)) as [l n]. specialize (IH (S r) l). destruct (mrr_loop (S r) recv l) as [s c]. cbn [fst snd] in *.
  destruct IH as (I1 & I2 & I3). split; [rewrite app_length, repeat_length; lia|]. split.
  - rewrite map_app, rsum_app, I2, Q2R_plus, Q2R_mult, map_repeat_const, rsum_repeat. f_equal.
    fold (qnat n). rewrite Q2R_qnat. f_equal. change 1%Q with (inject_Z (Z.of_nat 1)). rewrite Q2R_frac by lia. reflexivity.
  - intros k Hk. apply in_app_or in Hk as [Hk|Hk]; [apply repeat_spec in Hk; lia|apply I3, Hk].
Qed.

Lemma mrr_ranks_all argsort docs :
  let ranks := flat_map (fun d : doc => mrr_ranks 0 (ranking argsort (snd d)) (fst d)) docs in
  length ranks = sumN (map (fun d => snd (mrr_doc argsort d)) docs) /\
  rsum (map (fun k => 1 / INR k) ranks) = Q2R (fold_right Qplus 0%Q (map (fun d => fst (mrr_doc argsort d)) docs)) /\
  forall k, In k ranks -> (1 <= k)%nat.
Proof.
  induction docs as [|d docs IH]; cbn [flat_map map fold_right].
  - repeat split; [unfold rsum, Q2R; cbn; lra|intros k []].
  - cbv zeta in *. destruct IH as (I1 & I2 & I3). destruct (mrr_ranks_step (ranking argsort (snd d)) 0 (fst d)) as (J1 & J2 & J3).
    unfold sumN, mrr_doc in *. cbn [map fold_right]. rewrite app_length, map_app, rsum_app, Q2R_plus. split; [lia|]. split; [lra|].
    intros k Hk. apply in_app_or in Hk as [Hk|Hk]; auto.
Qed.

(** With at most 2^53 links found: it fails when the exact one does, and is close otherwise. *)
Theorem C142_mrr_in_doubles : forall argsort (docs : list doc) (n : nat),
  (forall d, In d docs -> (length (snd d) <= n)%nat) -> sorts argsort ->
  (forall d, In d docs -> NoDup (fst d) /\ NoDup (map fst (snd d))) ->
  (Z.of_nat (length docs * n) <= 2 ^ 53)%Z ->
  match mean_reciprocal_rank argsort docs with
  | Raise e => mean_reciprocal_rank_f argsort docs = Raise e
  | Ok q => exists x, mean_reciprocal_rank_f argsort docs = Ok x /\ 0 <= x <= 1 /\
      Rabs (x - Q2R q) <= (INR (length docs * n) + 2) * / 2 ^ 53
  end.
Proof.
  intros argsort docs n Hn Hs HN HB. destruct (mrr_ranks_all argsort docs) as (E1 & E2 & E3).
  unfold mean_reciprocal_rank, mean_reciprocal_rank_f.
  set (ranks := flat_map (fun d : doc => mrr_ranks 0 (ranking argsort (snd d)) (fst d)) docs) in *. rewrite <- E1.
  destruct (Nat.eqb_spec (length ranks) 0) as [|Hr]; [reflexivity|].
  assert (HL : (length ranks <= length docs * n)%nat).
  { rewrite E1. clear -Hn HN Hs. induction docs as [|d docs IH]; [cbn; lia|]. unfold sumN in *. cbn [map fold_right length].
    pose proof (IH ltac:(intros; apply Hn; right; assumption) ltac:(intros; apply HN; right; assumption)) as IH'.
    destruct (HN d (or_introl eq_refl)) as [N1 N2]. pose proof (Hn d (or_introl eq_refl)) as Hd.
    unfold mrr_doc at 1. destruct (mrr_loop_spec (ranking argsort (snd d)) 0 (fst d)) as [_ C].
    - eapply Permutation_NoDup; [symmetry; apply ranking_perm, Hs|exact N2].
    - exact N1.
    - rewrite C. assert (length (filter (fun e => if in_dec Nat.eq_dec e (ranking argsort (snd d)) then true else false) (fst d)) <= length (snd d))%nat; [|lia].
      rewrite <- (map_length fst (snd d)), <- (Permutation_length (ranking_perm argsort (snd d) Hs)).
      apply NoDup_incl_length; [apply NoDup_filter, N1|]. intros e He. apply filter_In in He as [_ He].
      destruct (in_dec _ _ _); [assumption|discriminate]. }
  eexists. split; [reflexivity|].
  assert (HF : Forall2 (near u) (map (fun r => rd (1 / INR r)) ranks) (map (fun k => 1 / INR k) ranks)).
  { clear -E3. induction ranks as [|k l IH]; [constructor|]. cbn [map]. constructor; [|apply IH; intros; apply E3; right; assumption].
    change 1 with (INR 1). apply near_frac; pose proof (E3 k (or_introl eq_refl)); lia. }
  pose proof u_pos as Hu.
  destruct (fmean u _ _ (length ranks) HF) as [G1 G2]; [rewrite map_length; lia|lia|lia|lra|].
  split; [exact G1|]. rewrite Q2R_div.
  - fold (qnat (length ranks)). rewrite Q2R_qnat, <- E2. eapply Rle_trans; [exact G2|]. rewrite <- u_pow. apply le_INR in HL.
    assert (INR (length ranks) * u <= INR (length docs * n) * u) by (apply Rmult_le_compat_r; lra). lra.
  - pose proof (qnat_pos (length ranks) ltac:(lia)) as P. unfold qnat in P. intros E0. rewrite E0 in P. discriminate P.
Qed.

(** Two documents, one with two links, both on top: a half, exactly. *)
Lemma rd_half : rd (INR 1 / INR 2) = / 2.
Proof.
  replace (INR 1 / INR 2) with (F2R (Float radix2 1 (-1))) by (unfold F2R; cbn; lra).
  rewrite rd_double; [unfold F2R; cbn; lra|]. apply generic_format_FLT. exists (Float radix2 1 (-1)); [reflexivity|cbn; lia|cbn; lia].
Qed.

Example C142_case :
  (forall d, In d c23_docs -> (Z.of_nat (length (fst d)) <= 2 ^ 53)%Z /\ NoDup (map fst (snd d)) /\ scores_favour (fst d) (snd d)) /\
  mean_average_prec_f isort c23_docs = Ok (/ 2).
Proof.
  assert (H : forall d, In d c23_docs -> (Z.of_nat (length (fst d)) <= 2 ^ 53)%Z /\ NoDup (map fst (snd d)) /\ scores_favour (fst d) (snd d)).
  { intros d Hd. split; [|apply (proj1 C23_case), Hd]. destruct Hd as [<-|[<-|[]]]; cbn [fst length]; lia. }
  split; [exact H|].
  destruct (C142_map_of_perfect_ranking isort c23_docs isort_sorts ltac:(discriminate) ltac:(cbn [c23_docs length]; lia) H) as [-> _].
  change (length (with_links c23_docs)) with 1%nat. change (length c23_docs) with 2%nat. rewrite rd_half. reflexivity.
Qed.

(** Thirds are not doubles: the computed value differs from the exact one. *)
Lemma third_not_double : ~ is_double (1 / 3).
Proof.
  intros H. apply FLT_format_generic in H; [|reflexivity]. destruct H as [[m e] E Hm He]. cbn [Fnum Fexp] in *.
  unfold F2R in E. cbn [Fnum Fexp] in E.
  assert (e < 0)%Z as He0.
  { destruct (Z.ltb_spec e 0) as [|H0]; [assumption|exfalso]. rewrite <- IZR_Zpower in E by exact H0. rewrite <- mult_IZR in E.
    assert (IZR (3 * (m * radix2 ^ e)) = IZR 1) as E' by (rewrite mult_IZR; lra). apply eq_IZR in E'. lia. }
  assert (E2 : IZR (radix2 ^ (- e)) = IZR (3 * m)).
  { rewrite mult_IZR, (IZR_Zpower radix2) by lia. 
    assert (bpow radix2 e * bpow radix2 (- e) = 1) as P by (rewrite <- bpow_plus; replace (e + - e)%Z with 0%Z by lia; reflexivity).
    replace (bpow radix2 (- e)) with (3 * (1 / 3) * bpow radix2 (- e)) by lra. rewrite E.
    replace (3 * (IZR m * bpow radix2 e) * bpow radix2 (- e)) with (3 * IZR m * (bpow radix2 e * bpow radix2 (- e))) by ring.
    rewrite P. ring. }
  apply eq_IZR in E2. change (radix_val radix2) with 2%Z in E2.
  assert (Hp : forall k, (0 <= k)%Z -> (2 ^ k mod 3 <> 0)%Z).
  { apply natlike_ind; [discriminate|]. intros k Hk IH. rewrite Z.pow_succ_r by exact Hk. intros H.
    pose proof (Z.div_mod (2 * 2 ^ k) 3). pose proof (Z.div_mod (2 ^ k) 3). pose proof (Z.mod_pos_bound (2 ^ k) 3). lia. }
  apply (Hp (- e)%Z); [lia|]. rewrite E2, Z.mul_comm. apply Z.mod_mul. discriminate.
Qed.

Theorem C142_mrr_rounds : exists argsort (docs : list doc) q x, sorts argsort /\
  mean_reciprocal_rank argsort docs = Ok q /\ mean_reciprocal_rank_f argsort docs = Ok x /\ x <> Q2R q.
Proof.
  exists isort, [([1%nat], [(2%nat, (3 # 4)%Q); (3%nat, (1 # 2)%Q); (1%nat, (1 # 4)%Q)])]. eexists. eexists.
  split; [apply isort_sorts|]. split; [reflexivity|]. split; [reflexivity|].
  intros E. apply third_not_double. 
  match type of E with _ = Q2R ?q => assert (Q2R q = 1 / 3) as E' end.
  { rewrite <- (Qeq_eqR (1 # 3)); [unfold Q2R; cbn; lra|vm_compute; reflexivity]. }
  rewrite E' in E. rewrite <- E. apply rd_is_double.
Qed.

(** ** C143: document completion *)

(** Every document completion computed in doubles, from jitters that are arbitrary real numbers, is one the exact
    procedure makes from some rational jitter. *)
Theorem C143_completion_in_doubles : forall mu jitter p ds,
  (0 <= p <= 1)%Q -> (forall i, Rabs (jitter i) <= 2 ^ 51) ->
  (forall r c v, In r (srows (words ds)) -> In (c, v) r -> (Z.abs v <= 2 ^ 51)%Z) ->
  exists jitter', doc_completion_split_f mu jitter (Q2R p) ds = doc_completion_split mu jitter' p ds.
Proof.
  intros mu jitter p ds Hp Hj Hv.
  destruct (complete_rows_exact p jitter Hp) with (rs := srows (words ds)) (k := 0%nat) as (jit & E).
  - intros i. pose proof (pow_IZR 2 51) as P. change (Z.of_nat 51) with 51%Z in P. rewrite <- P. apply Hj.
  - exact Hv.
  - exists jit. unfold doc_completion_split_f, doc_completion_split. rewrite E. reflexivity.
Qed.

(** So no token is lost or counted twice. *)
Theorem C143_completion_conserves_tokens : forall mu jitter p ds a b,
  (0 <= p <= 1)%Q -> (forall i, Rabs (jitter i) <= 2 ^ 51) ->
  (forall r c v, In r (srows (words ds)) -> In (c, v) r -> (Z.abs v <= 2 ^ 51)%Z) ->
  feats ds = None ->
  doc_completion_split_f mu jitter (Q2R p) ds = Ok (a, b) ->
  (forall d w, (mget (words a) d w + mget (words b) d w = mget (words ds) d w)%Z) /\
  nrows (words a) = nrows (words ds) /\ nrows (words b) = nrows (words ds) /\
  same_side_data a ds /\ same_side_data b ds.
Proof.
  intros mu jitter p ds a b Hp Hj Hv Hf H.
  destruct (C143_completion_in_doubles mu jitter p ds Hp Hj Hv) as (jit & E). rewrite E in H.
  destruct (C14_completion_conserves_tokens mu jit p ds a b Hf H) as (G1 & G2 & G3 & _ & _ & G6 & G7 & _). auto.
Qed.

(** And it returns for every consistent corpus. *)
Theorem C143_completion_returns : forall mu jitter p ds,
  (0 <= p <= 1)%Q -> (forall i, Rabs (jitter i) <= 2 ^ 51) ->
  (forall r c v, In r (srows (words ds)) -> In (c, v) r -> (Z.abs v <= 2 ^ 51)%Z) ->
  consistent ds -> (mu <= 0)%Q ->
  exists a b, doc_completion_split_f mu jitter (Q2R p) ds = Ok (a, b).
Proof.
  intros mu jitter p ds Hp Hj Hv Hc Hmu. destruct (C143_completion_in_doubles mu jitter p ds Hp Hj Hv) as (jit & E). rewrite E.
  destruct (C14_completion_returns mu jit p ds Hc Hmu) as (a & b & G & _). eauto.
Qed.

Example C143_case : (forall r c v, In r (srows (words pex_ds)) -> In (c, v) r -> (Z.abs v <= 2 ^ 51)%Z) /\
  feats pex_ds = None /\ consistent pex_ds /\
  complete_count_f (Q2R (1 # 2)) (1 / 3) 5 = (3, 2)%Z.
Proof.
  split; [|split; [apply C14_example|split; [apply C14_example|]]].
  - cbn. intros r c v Hr Hc. repeat (destruct Hr as [<-|Hr]); try destruct Hr;
    repeat (destruct Hc as [[= <- <-]|Hc]; [lia|]); destruct Hc.
  - unfold complete_count_f. pose proof u_val as Hu.
    assert (Rabs (rd (5 + 1 / 3) - (5 + 1 / 3)) <= u * 6) as H1 by (apply rd_error; [rewrite Rabs_pos_eq|]; lra).
    replace (Q2R (1 # 2)) with (/ 2) by (unfold Q2R; cbn; lra). set (a := rd (5 + 1 / 3)) in *.
    apply Rabs_le_inv in H1.
    assert (Rabs (rd (a * / 2) - a * / 2) <= u * 4) as H2 by (apply rd_error; [rewrite Rabs_pos_eq|]; lra).
    apply Rabs_le_inv in H2. set (b := rd (a * / 2)) in *.
    assert (ZnearestE b = 3%Z) as -> by (apply Znearest_imp; apply Rabs_lt; lra).
    rewrite <- minus_IZR, rd_int by lia. rewrite Ztrunc_IZR. reflexivity.
Qed.

Print Assumptions C141_folds_are_exact.
Print Assumptions C141_fold_partitions_corpus.
Print Assumptions C142_map_in_doubles.
Print Assumptions C142_map_fails_alike.
Print Assumptions C142_map_of_perfect_ranking.
Print Assumptions C142_mrr_in_doubles.
Print Assumptions C142_mrr_rounds.
Print Assumptions C143_completion_in_doubles.
Print Assumptions C143_completion_conserves_tokens.
Print Assumptions C143_completion_returns.
