(** * Likelihoods and the mixture of multinomials (C46, C93-C98). *)
From Coq Require Import List Reals Arith Bool Lra Lia.
From Verif Require Import Base RealModel RealProofs MixModel MixProofs.
Import ListNotations.
Open Scope R_scope.

(** ** C46: the wrapper's point log-likelihood *)

(** Admixtures: the logarithm of the probability of the words. *)
Theorem C46_admixture_is_log_probability : forall tiny doc theta phi, 0 < tiny ->
  (forall t n, nth_error doc t = Some (S n) -> tiny < dot theta (col phi t)) ->
  0 < words_prob doc (admix theta phi (length doc)) /\
  admixture_score tiny doc theta phi = ln (words_prob doc (admix theta phi (length doc))).
Proof.
  intros tiny doc theta phi T. unfold admixture_score, admix.
  change (forall t n, nth_error doc t = Some (S n) -> tiny < dot theta (col phi t)) with
    (forall t n, nth_error doc t = Some (S n) -> tiny < dot theta (col phi (0 + t)%nat)).
  generalize 0%nat as o. induction doc as [|n doc IH]; intros o H.
  - cbn. rewrite ln_1. split; [lra|reflexivity].
  - cbn [length seq combine map words_prob rsum].
    destruct (IH (S o)) as [P E].
    { intros t m N. replace (S o + t)%nat with (o + S t)%nat by lia. exact (H (S t) m N). }
    rewrite E. destruct n as [|n].
    + cbn [pow]. split; [lra|]. rewrite Rmult_1_l. lra.
    + pose proof (H 0%nat n eq_refl) as Q. rewrite Nat.add_0_r in Q.
      assert (0 < dot theta (col phi o)) by lra.
      assert (B : rltb tiny (dot theta (col phi o)) = true) by (apply rltb_true; exact Q).
      rewrite B. split; [apply Rmult_lt_0_compat; auto using pow_lt|].
      rewrite ln_mult by (auto using pow_lt). rewrite ln_pow' by assumption. reflexivity.
Qed.

(** Words that the topics make (almost) impossible count as having the smallest
    positive probability: every word has a finite penalty, for all documents. *)
Theorem C46_admixture_floors_impossible_words : forall tiny doc theta phi, 0 < tiny ->
  admixture_score tiny doc theta phi =
  ln (words_prob doc (map (Rmax tiny) (admix theta phi (length doc)))).
Proof.
  intros tiny doc theta phi T. unfold admixture_score, admix.
  assert (F : forall p, (if rltb tiny p then ln p else ln tiny) = ln (Rmax tiny p)).
  { intros p. destruct (rltb tiny p) eqn:B; unfold Rmax.
    - apply rltb_true in B. destruct (Rle_dec tiny p); [reflexivity|lra].
    - apply rltb_false in B. destruct (Rle_dec tiny p); [|reflexivity]. f_equal. lra. }
  assert (Pos : forall p, 0 < Rmax tiny p) by (intros p; pose proof (Rmax_l tiny p); lra).
  enough (G : forall o, 0 < words_prob doc (map (Rmax tiny) (map (fun t => dot theta (col phi t)) (seq o (length doc)))) /\
    rsum (map (fun '(t, n) => match n with O => 0 | _ => let p := dot theta (col phi t) in INR n * (if rltb tiny p then ln p else ln tiny) end)
      (combine (seq o (length doc)) doc)) =
    ln (words_prob doc (map (Rmax tiny) (map (fun t => dot theta (col phi t)) (seq o (length doc)))))) by apply (G 0%nat).
  induction doc as [|n doc IH]; intros o.
  - cbn. rewrite ln_1. split; [lra|reflexivity].
  - cbn [length seq combine map words_prob rsum]. destruct (IH (S o)) as [P E]. cbv zeta in *. rewrite E. clear E.
    pose proof (Pos (dot theta (col phi o))) as Q.
    destruct n as [|n].
    + cbn [pow]. split; [lra|]. rewrite Rmult_1_l. lra.
    + rewrite F. split; [apply Rmult_lt_0_compat; auto using pow_lt|].
      rewrite ln_mult by (auto using pow_lt). rewrite ln_pow' by assumption. reflexivity.
Qed.

(** It is never positive when topics and words are distributions. *)
Lemma dot_le_weights : forall w x, Forall (fun v => 0 <= v) w -> Forall (fun v => 0 <= v <= 1) x ->
  0 <= dot w x <= rsum w.
Proof.
  unfold dot. induction w as [|a w IH]; intros x Hw Hx; cbn; [lra|].
  inversion Hw; subst. pose proof (rsum_nonneg w H2). destruct x as [|b x]; cbn; [lra|].
  inversion Hx; subst. specialize (IH x H2 H5).
  assert (0 <= a * b <= a * 1). { split; [apply Rmult_le_pos; lra|apply Rmult_le_compat_l; lra]. } lra.
Qed.
Theorem C46_admixture_not_positive : forall tiny doc theta phi, 0 < tiny ->
  (forall t n, nth_error doc t = Some (S n) -> tiny < dot theta (col phi t)) ->
  Forall (fun w => 0 <= w) theta -> rsum theta = 1 -> Forall (Forall (fun p => 0 <= p <= 1)) phi ->
  admixture_score tiny doc theta phi <= 0.
Proof.
  intros tiny doc theta phi T H Ht S Hp.
  destruct (C46_admixture_is_log_probability tiny doc theta phi T H) as [P ->].
  assert (words_prob doc (admix theta phi (length doc)) <= 1).
  { apply words_prob_le1. unfold admix. rewrite Forall_forall. intros x I. apply in_map_iff in I.
    destruct I as [t [<- _]]. rewrite <- S. apply dot_le_weights; [exact Ht|].
    unfold col. rewrite Forall_forall. intros x I. apply in_map_iff in I. destruct I as [row [<- I]].
    rewrite Forall_forall in Hp. specialize (Hp row I).
    destruct (nth_in_or_default t row 0) as [J| ->]; [|lra].
    rewrite Forall_forall in Hp. exact (Hp _ J). }
  rewrite <- ln_1. destruct (Req_dec (words_prob doc (admix theta phi (length doc))) 1) as [-> |N]; [lra|].
  left. apply ln_increasing; lra.
Qed.

(** Mixtures: the exact value, and how far it is from the log-probability. *)
Lemma component_logs_mix : forall a doc theta phi, 0 < a -> length theta = length phi ->
  Forall (fun w => a <= w) theta ->
  Forall (fun p => length p = length doc /\ Forall (fun x => a <= x) p) phi ->
  component_logs a doc theta phi = add_rows (map (fun p => ln (words_prob doc p)) phi) (map ln theta).
Proof.
  intros a doc theta phi A L Ht Hp. unfold component_logs. rewrite (safe_log_above a theta A Ht). f_equal.
  apply map_ext_in. intros p I. rewrite Forall_forall in Hp. destruct (Hp p I) as [Lp Fp].
  rewrite safe_log_above by assumption. apply dot_counts_ln; [congruence|].
  eapply Forall_impl; [|exact Fp]. cbn. intros; lra.
Qed.

Theorem C46_mixture_score_value : forall a doc theta phi, 0 < a -> theta <> [] -> length theta = length phi ->
  Forall (fun w => a <= w) theta ->
  Forall (fun p => length p = length doc /\ Forall (fun x => a <= x) p) phi ->
  exists s, 1 <= s <= INR (length theta) /\
    mixture_score a doc theta phi = Ok (ln (mix_prob doc theta phi) + (s - ln s)) /\ 1 <= s - ln s.
Proof.
  intros a doc theta phi A N L Ht Hp. unfold mixture_score. rewrite component_logs_mix by assumption.
  set (l := add_rows _ _).
  assert (Ll : length l = length theta).
  { unfold l, add_rows. rewrite map_length, combine_length, !map_length. lia. }
  assert (Nl : l <> []). { intros E. rewrite E in Ll. destruct theta; [congruence|discriminate Ll]. }
  destruct (max_of_ok l Nl) as [mx M]. rewrite M. cbn [bind].
  destruct (max_of_spec l mx M) as [I B].
  set (s := rsum (map (fun x => exp (x - mx)) l)).
  assert (S1 : 1 <= s).
  { unfold s. apply rsum_in_le.
    - rewrite Forall_forall. intros y J. apply in_map_iff in J. destruct J as [x [<- _]]. left. apply exp_pos.
    - apply in_map_iff. exists mx. split; [|exact I]. rewrite Rminus_diag_eq by reflexivity. apply exp_0. }
  assert (S2 : s <= INR (length theta)).
  { unfold s. rewrite <- Ll, <- (map_length (fun x => exp (x - mx))). apply rsum_le_n. rewrite Forall_forall.
    intros y J. apply in_map_iff in J. destruct J as [x [<- J]]. rewrite <- exp_0. apply exp_le. specialize (B x J). lra. }
  exists s. split; [split; assumption|]. split.
  - f_equal. pose proof (lse_shift l mx Nl) as E. fold s in E.
    unfold l in E at 1. rewrite expsum_mix in E; [lra| | |exact L].
    + eapply Forall_impl; [|exact Ht]. cbn. intros; lra.
    + eapply Forall_impl; [|exact Hp]. cbn. intros p [_ F]. eapply Forall_impl; [|exact F]. cbn. intros; lra.
  - pose proof (ln_le_sub1 s ltac:(lra)). lra.
Qed.

(** So a mixture is always credited at least one nat too much per document. *)
Theorem C46_mixture_overestimates : forall a doc theta phi r, 0 < a -> theta <> [] -> length theta = length phi ->
  Forall (fun w => a <= w) theta ->
  Forall (fun p => length p = length doc /\ Forall (fun x => a <= x) p) phi ->
  mixture_score a doc theta phi = Ok r -> ln (mix_prob doc theta phi) + 1 <= r.
Proof.
  intros a doc theta phi r A N L Ht Hp H.
  destruct (C46_mixture_score_value a doc theta phi A N L Ht Hp) as (s & _ & E & S).
  rewrite E in H. assert (r = ln (mix_prob doc theta phi) + (s - ln s)) by congruence. lra.
Qed.

Theorem C46_mixture_is_log_probability_refuted :
  exists doc theta phi a r, 0 < a /\ Forall (fun w => a <= w) theta /\ rsum theta = 1 /\
    Forall (fun p => length p = length doc /\ Forall (fun x => a <= x) p) phi /\
    Forall (fun p => rsum p = 1) phi /\ length theta = length phi /\
    mix_prob doc theta phi = 1 /\ mixture_score a doc theta phi = Ok r /\ r >= 1.
Proof.
  exists [1%nat], [/2; /2], [[1]; [1]], (/4).
  assert (H1 : Forall (fun w => / 4 <= w) [/2; /2]) by (repeat constructor; lra).
  assert (H2 : Forall (fun p => length p = length [1%nat] /\ Forall (fun x => /4 <= x) p) [[1]; [1]]).
  { repeat constructor; lra. }
  assert (M : mix_prob [1%nat] [/2; /2] [[1]; [1]] = 1) by (cbn; lra).
  destruct (C46_mixture_score_value (/4) [1%nat] [/2; /2] [[1]; [1]]) as (s & _ & E & S); auto; [lra|discriminate|].
  rewrite M, ln_1 in E. eexists. split; [lra|]. split; [exact H1|]. split; [cbn; lra|]. split; [exact H2|].
  split; [repeat constructor; cbn; lra|]. split; [reflexivity|]. split; [exact M|]. split; [exact E|]. lra.
Qed.

(** ** C97: the model's own point log-likelihood *)
Lemma normalised_pos : forall row, Forall (fun x => 0 < x) row -> Forall (fun x => 0 < x) (normalised row).
Proof.
  intros row H. unfold normalised. rewrite Forall_forall. intros x I. apply in_map_iff in I. destruct I as [y [<- J]].
  assert (0 < rsum row) by (apply rsum_pos; [intros ->; destruct J|exact H]).
  rewrite Forall_forall in H. apply Rdiv_lt_0_compat; auto.
Qed.

Lemma point_like_doc_value : forall a doc theta wp, 0 < a -> theta <> [] -> length theta = length wp ->
  Forall (fun w => a <= w) theta ->
  Forall (fun p => length p = length doc /\ Forall (fun x => 0 < x) p) wp ->
  point_like_doc doc theta wp a = Ok (ln (mix_prob doc theta (map normalised wp))).
Proof.
  intros a doc theta wp A N L Ht Hp. unfold point_like_doc, point_logs.
  rewrite (safe_log_above a theta A Ht).
  replace (map (fun row => dot (counts doc) (map ln (normalised row))) wp)
    with (map (fun p => ln (words_prob doc p)) (map normalised wp)).
  2:{ rewrite map_map. apply map_ext_in. intros row I. symmetry. rewrite Forall_forall in Hp.
      destruct (Hp row I) as [Lr Fr]. apply dot_counts_ln; [unfold normalised; rewrite map_length; congruence|].
      apply normalised_pos, Fr. }
  set (l := add_rows _ _).
  assert (Nl : l <> []).
  { intros E. apply (f_equal (@length R)) in E. unfold l, add_rows in E.
    rewrite map_length, combine_length, !map_length in E. destruct theta; [congruence|]. cbn in *. lia. }
  destruct (max_of_ok l Nl) as [mx M]. rewrite M. cbn [bind]. f_equal.
  rewrite lse_shift by exact Nl. f_equal. unfold l. apply expsum_mix.
  - eapply Forall_impl; [|exact Ht]. cbn. intros; lra.
  - rewrite Forall_forall. intros p I. apply in_map_iff in I. destruct I as [row [<- I]].
    apply normalised_pos. rewrite Forall_forall in Hp. apply (Hp row I).
  - rewrite map_length. exact L.
Qed.

Theorem C97_point_likelihood : forall a docs topics cp wp, 0 < a -> cp <> [] -> length cp = length wp ->
  Forall (fun p => Forall (fun x => 0 < x) p /\ Forall (fun doc : list nat => length p = length doc) docs) wp ->
  (forall t, topics = Some t -> length t = length docs /\
     Forall (fun th => length th = length cp /\ Forall (fun w => a <= w) th) t) ->
  (topics = None -> Forall (fun w => a <= w) (normalised cp)) ->
  point_like docs topics cp wp a =
    Ok (rsum (map (fun '(d, doc) => ln (mix_prob doc (match topics with Some t => nth d t [] | None => normalised cp end)
                                                  (map normalised wp)))
                (combine (seq 0 (length docs)) docs))).
Proof.
  intros a docs topics cp wp A N L Hw Ht Hc. unfold point_like.
  rewrite (proj2 (mapM_ok_Forall2 _ _ (map (fun '(d, doc) => ln (mix_prob doc
      (match topics with Some t => nth d t [] | None => normalised cp end) (map normalised wp)))
      (combine (seq 0 (length docs)) docs)))); [reflexivity|].
  assert (G : forall l, (forall d doc, In (d, doc) l -> (d < length docs)%nat /\ In doc docs) ->
     Forall2 (fun x r => (let '(d, doc) := x in
        let theta := match topics with Some t => nth d t [] | None => normalised cp end in
        point_like_doc doc theta wp a) = Ok r) l
      (map (fun '(d, doc) => ln (mix_prob doc (match topics with Some t => nth d t [] | None => normalised cp end)
                                 (map normalised wp))) l)).
  { induction l as [|[d doc] l IH]; intros B; cbn; constructor.
    - cbv zeta. destruct (B d doc (or_introl eq_refl)) as [Bd Bi].
      assert (Hd : Forall (fun p => length p = length doc /\ Forall (fun x => 0 < x) p) wp).
      { eapply Forall_impl; [|exact Hw]. cbn. intros p [P Q]. split; [|exact P].
        rewrite Forall_forall in Q. apply Q, Bi. }
      destruct topics as [t|].
      + destruct (Ht t eq_refl) as [Lt Ft]. rewrite Forall_forall in Ft.
        destruct (Ft (nth d t [])) as [L1 F1]; [apply nth_In; lia|].
        apply point_like_doc_value; auto; [|lia].
        intros E. rewrite E in L1. destruct cp; [congruence|discriminate L1].
      + apply point_like_doc_value; auto.
        * unfold normalised. destruct cp; [congruence|discriminate].
        * unfold normalised. rewrite map_length. exact L.
    - apply IH. intros d' doc' I. apply B. right; exact I. }
  apply G. intros d doc I. split.
  - apply in_combine_l in I. apply in_seq in I. lia.
  - apply in_combine_r in I. exact I.
Qed.

(** ** C98: perplexity *)
(** The perplexity of [n] tokens with joint probability [p] is the number whose
    [n]-th power is one over [p]. *)
Theorem C98_perplexity_is_inverse_mean_probability : forall p n, 0 < p -> (0 < n)%nat ->
  perplexity_from_like (ln p) (INR n) ^ n * p = 1.
Proof.
  intros p n P N. unfold perplexity_from_like.
  assert (0 < INR n) by (apply lt_0_INR; exact N).
  assert (E : exp (- ln p / INR n) ^ n = exp (- ln p)).
  { rewrite <- Rpower_pow by apply exp_pos. unfold Rpower. rewrite ln_exp. f_equal. field. lra. }
  rewrite E, exp_Ropp, exp_ln by exact P. field. lra.
Qed.
Theorem C98_better_likelihood_lower_perplexity : forall l1 l2 n, 0 < n ->
  (perplexity_from_like l1 n < perplexity_from_like l2 n <-> l2 < l1).
Proof.
  intros l1 l2 n N. unfold perplexity_from_like. split; intros H.
  - apply exp_lt_inv in H. unfold Rdiv in H. apply Rmult_lt_reg_r in H; [lra|apply Rinv_0_lt_compat; exact N].
  - apply exp_increasing. unfold Rdiv. apply Rmult_lt_compat_r; [apply Rinv_0_lt_compat; exact N|lra].
Qed.
Theorem C98_at_least_one : forall l n, 0 < n -> (1 <= perplexity_from_like l n <-> l <= 0).
Proof.
  intros l n N. assert (E : perplexity_from_like 0 n = 1).
  { unfold perplexity_from_like. rewrite <- exp_0. f_equal. field. lra. }
  rewrite <- E. split; intros H.
  - apply Rnot_lt_le. intros K. apply (C98_better_likelihood_lower_perplexity l 0 n N) in K. lra.
  - apply Rnot_lt_le. intros K. apply (C98_better_likelihood_lower_perplexity l 0 n N) in K. lra.
Qed.

(** ** C95: the expected likelihood *)
(** The probability of a sequence of words, drawn one after the other in
    proportion to the parameters plus the words seen so far. *)
Fixpoint rising (x : R) (n : nat) : R := match n with O => 1 | S m => (x + INR m) * rising x m end.
Fixpoint urn (doc : list nat) (beta : list R) : R :=
  match doc, beta with n :: doc, b :: beta => rising b n * urn doc beta | _, _ => 1 end.
Definition urn_prob (doc : list nat) (beta : list R) : R := urn doc beta / rising (rsum beta) (sumN doc).

Definition is_lgamma (lgam : R -> R) : Prop := forall x, 0 < x -> lgam (x + 1) = ln x + lgam x.

Lemma rising_pos : forall x n, 0 < x -> 0 < rising x n.
Proof.
  intros x n H. induction n as [|n IH]; cbn; [lra|]. pose proof (pos_INR n).
  apply Rmult_lt_0_compat; lra.
Qed.
Lemma lgam_rising : forall lgam x n, is_lgamma lgam -> 0 < x -> lgam (INR n + x) = lgam x + ln (rising x n).
Proof.
  intros lgam x n G H. induction n as [|n IH].
  - cbn. rewrite Rplus_0_l, ln_1. lra.
  - cbn [rising]. pose proof (pos_INR n).
    rewrite S_INR. replace (INR n + 1 + x) with ((INR n + x) + 1) by lra.
    rewrite G by lra. rewrite IH, ln_mult by (auto using rising_pos; lra).
    replace (x + INR n) with (INR n + x) by lra. lra.
Qed.
Lemma urn_pos : forall doc beta, Forall (fun b => 0 < b) beta -> 0 < urn doc beta.
Proof.
  induction doc as [|n doc IH]; intros [|b beta] H; cbn; try lra. inversion H; subst.
  apply Rmult_lt_0_compat; auto using rising_pos.
Qed.
Lemma counts_sum : forall doc, rsum (counts doc) = INR (sumN doc).
Proof.
  induction doc as [|n doc IH]; [reflexivity|]. unfold counts in *. cbn [map rsum].
  rewrite IH. change (sumN (n :: doc)) with (n + sumN doc)%nat. rewrite plus_INR. reflexivity.
Qed.
Lemma words_lgam : forall lgam doc beta, is_lgamma lgam -> Forall (fun b => 0 < b) beta -> length doc = length beta ->
  rsum (map lgam (add_rows (counts doc) beta)) - rsum (map lgam beta) = ln (urn doc beta).
Proof.
  intros lgam doc. unfold add_rows, counts. induction doc as [|n doc IH]; intros [|b beta] G H L; cbn in *; try discriminate.
  - rewrite ln_1. lra.
  - inversion H; subst. rewrite ln_mult by (auto using rising_pos, urn_pos). rewrite lgam_rising by assumption.
    rewrite <- IH by auto. lra.
Qed.
Lemma word_term_value : forall lgam doc beta, is_lgamma lgam -> Forall (fun b => 0 < b) beta -> beta <> [] ->
  length doc = length beta -> word_term lgam doc beta = ln (urn_prob doc beta).
Proof.
  intros lgam doc beta G H N L. unfold word_term, urn_prob.
  assert (P : 0 < rsum beta) by (apply rsum_pos; assumption).
  rewrite counts_sum, lgam_rising by assumption.
  pose proof (words_lgam lgam doc beta G H L).
  unfold Rdiv. rewrite ln_mult, ln_Rinv by (auto using urn_pos, rising_pos, Rinv_0_lt_compat). lra.
Qed.
Lemma topic_term_value : forall lgam alpha k, is_lgamma lgam -> Forall (fun b => 0 < b) alpha -> (k < length alpha)%nat ->
  topic_term lgam alpha (rsum alpha) k = ln (nth k alpha 0 / rsum alpha).
Proof.
  intros lgam alpha k G H K. unfold topic_term.
  assert (N : alpha <> []) by (intros ->; cbn in K; lia).
  assert (P : 0 < rsum alpha) by (apply rsum_pos; assumption).
  assert (Pk : 0 < nth k alpha 0). { rewrite Forall_forall in H. apply H, nth_In, K. }
  rewrite (G (rsum alpha) P).
  assert (E : rsum (map (fun j => lgam ((if (j =? k)%nat then 1 else 0) + nth j alpha 0)) (seq 0 (length alpha)))
              = rsum (map lgam alpha) + ln (nth k alpha 0)).
  { clear N P. revert k K Pk. induction alpha as [|a alpha IH]; intros k K Pk; [cbn in K; lia|].
    inversion H; subst. cbn [length seq map rsum]. rewrite <- seq_shift, map_map. destruct k as [|k].
    - cbn [Nat.eqb nth]. replace (1 + a) with (a + 1) by lra. rewrite (G a) by assumption.
      rewrite (rsum_ext _ (fun j => lgam (nth j alpha 0))).
      2:{ intros j _. cbn [Nat.eqb nth]. rewrite Rplus_0_l. reflexivity. }
      replace (rsum (map (fun j => lgam (nth j alpha 0)) (seq 0 (length alpha)))) with (rsum (map lgam alpha)); [lra|].
      clear. induction alpha as [|b alpha IH]; [reflexivity|]. cbn [length seq map rsum nth].
      rewrite <- seq_shift, map_map, IH. reflexivity.
    - cbn [Nat.eqb nth] in *. rewrite Rplus_0_l.
      rewrite IH by (auto; cbn in K; lia). lra. }
  rewrite E. unfold Rdiv. rewrite ln_mult, ln_Rinv by (auto using Rinv_0_lt_compat). lra.
Qed.

(** Without a query state it is the log-probability of the corpus with the topic
    and word probabilities integrated out. *)
Definition marginal_prob (doc : list nat) (cp : list R) (wp : list (list R)) : R :=
  rsum (map (fun '(k, beta) => nth k cp 0 / rsum cp * urn_prob doc beta) (combine (seq 0 (length wp)) wp)).

Theorem C95_expected_likelihood_of_prior : forall lgam docs cp wp, is_lgamma lgam -> cp <> [] -> length cp = length wp ->
  Forall (fun b => 0 < b) cp ->
  Forall (fun beta => beta <> [] /\ Forall (fun b => 0 < b) beta /\ Forall (fun doc : list nat => length doc = length beta) docs) wp ->
  expected_like lgam docs cp wp false = Ok (rsum (map (fun doc => ln (marginal_prob doc cp wp)) docs)).
Proof.
  intros lgam docs cp wp G N L Hc Hw. unfold expected_like, alpha_and_sum. cbn [bind].
  rewrite (proj2 (mapM_ok_Forall2 _ _ (map (fun doc => ln (marginal_prob doc cp wp)) docs))); [reflexivity|].
  assert (P : 0 < rsum cp) by (apply rsum_pos; assumption).
  assert (Gn : forall ds, (forall d, In d ds -> In d docs) -> Forall2 (fun doc r =>
      (let l := expected_logs lgam doc cp (rsum cp) wp in
       do mx <- max_of l; Ok (mx + ln (rsum (map (fun x => exp (x - mx)) l)))) = Ok r) ds
      (map (fun doc => ln (marginal_prob doc cp wp)) ds)).
  { induction ds as [|doc ds IH]; intros I; cbn [map]; constructor.
    2:{ apply IH. intros d J. apply I. right; exact J. }
    cbv zeta. specialize (I doc (or_introl eq_refl)).
    assert (E : map exp (expected_logs lgam doc cp (rsum cp) wp) =
                map (fun '(k, beta) => nth k cp 0 / rsum cp * urn_prob doc beta) (combine (seq 0 (length wp)) wp)).
    { unfold expected_logs. rewrite map_map. apply map_ext_in. intros [k beta] J.
      pose proof (in_combine_r _ _ _ _ J) as Jr. apply in_combine_l in J. apply in_seq in J.
      rewrite Forall_forall in Hw. destruct (Hw beta Jr) as (Nb & Fb & Lb). rewrite Forall_forall in Lb.
      assert (Kc : (k < length cp)%nat) by lia.
      assert (Pk : 0 < nth k cp 0). { rewrite Forall_forall in Hc. apply Hc, nth_In, Kc. }
      rewrite exp_plus, topic_term_value, word_term_value by auto.
      rewrite !exp_ln; [reflexivity| |apply Rdiv_lt_0_compat; assumption].
      unfold urn_prob. apply Rdiv_lt_0_compat; [apply urn_pos; assumption|].
      apply rising_pos, rsum_pos; assumption. }
    set (l := expected_logs lgam doc cp (rsum cp) wp) in *.
    assert (Nl : l <> []).
    { intros K. apply (f_equal (@length R)) in K. unfold l, expected_logs in K.
      rewrite map_length, combine_length, seq_length in K. destruct cp; [congruence|]. cbn in *. lia. }
    destruct (max_of_ok l Nl) as [mx M]. rewrite M. cbn [bind]. f_equal. rewrite lse_shift by exact Nl.
    rewrite E. reflexivity. }
  apply Gn. auto.
Qed.

(** With a query state it always fails. *)
Theorem C95_expected_likelihood_of_posterior_fails : forall lgam docs cp wp,
  expected_like lgam docs cp wp true = Raise OtherError.
Proof. reflexivity. Qed.
Theorem C95_expected_likelihood_refuted :
  exists lgam docs cp wp, is_lgamma lgam /\ (exists v, expected_like lgam docs cp wp false = Ok v) /\
    forall v, expected_like lgam docs cp wp true <> Ok v.
Proof.
  (* a function with the recurrence of loggamma *)
  assert (exists lgam, is_lgamma lgam) as [lgam G].
  { exists (fun x => rsum (map (fun i => ln (x - INR i)) (seq 1 (Z.to_nat (up x - 1))))).
    intros x X. assert (U : (up (x + 1) = up x + 1)%Z).
    { symmetry. apply tech_up; rewrite plus_IZR; destruct (archimed x); lra. }
    destruct (archimed x) as [A1 A2].
    assert (0 < up x)%Z. { apply lt_IZR. lra. }
    rewrite U. replace (Z.to_nat (up x + 1 - 1)) with (S (Z.to_nat (up x - 1))) by lia.
    cbn [seq map rsum]. rewrite <- seq_shift, map_map. f_equal.
    - f_equal. cbn. lra.
    - apply rsum_ext. intros i _. f_equal. rewrite S_INR. lra. }
  exists lgam, [[1%nat]], [1; 1], [[1]; [2]]. split; [exact G|]. split; [|intros v; discriminate].
  eexists. apply C95_expected_likelihood_of_prior; try assumption; try discriminate; try reflexivity.
  - repeat constructor; lra.
  - repeat constructor; try discriminate; try lra.
Qed.

(** ** C93: training of the mixture *)
Definition dist (K : nat) (row : list R) : Prop := length row = K /\ Forall (fun x => 0 < x) row /\ rsum row = 1.

Section EM.
  Context (psi : R -> R).
  Notation e_step := (e_step psi).
  Notation em_train := (em_train psi).
  Notation em_query := (em_query psi).

  Lemma softmax_dist : forall row, row <> [] -> exists out, softmax_row row = Ok out /\ dist (length row) out.
  Proof.
    intros row N. exists (softmax_of row). split; [apply softmax_row_spec, N|]. split; [|split].
    - unfold softmax_of. apply map_length.
    - unfold softmax_of. rewrite Forall_forall. intros x I. apply in_map_iff in I. destruct I as [y [<- _]].
      apply Rdiv_lt_0_compat; [apply exp_pos|apply expsum_pos, N].
    - apply softmax_of_sum, N.
  Qed.

  Lemma e_step_ok : forall W wp cp, cp <> [] -> length wp = length cp ->
    exists tops, e_step W wp cp = Ok tops /\ length tops = length W /\ Forall (dist (length cp)) tops.
  Proof.
    intros W wp cp N L. unfold MixModel.e_step. induction W as [|doc W IH]; [exists []; repeat split; constructor|].
    destruct IH as (tops & E & Lt & F).
    set (row := add_rows (map (dot doc) (ln_words psi wp)) (ln_corpus psi cp)).
    assert (Lr : length row = length cp).
    { unfold row, add_rows, ln_words, ln_corpus. rewrite map_length, combine_length, !map_length. lia. }
    destruct (softmax_dist row) as (out & E1 & D1).
    { intros K. rewrite K in Lr. destruct cp; [congruence|discriminate Lr]. }
    exists (out :: tops). cbn [mapM]. fold row. rewrite E1. cbn [bind]. rewrite E. cbn [bind].
    split; [reflexivity|]. split; [cbn; congruence|]. constructor; [|exact F]. rewrite <- Lr. exact D1.
  Qed.

  (** The totals that training keeps. *)
  Definition trained_totals (W : list (list R)) (topicPrior vocabPrior : list R) (wp : list (list R)) (cp : list R) : Prop :=
    length cp = length topicPrior /\ length wp = length topicPrior /\
    Forall (fun row => length row = length vocabPrior) wp /\
    rsum cp = INR (length W) + rsum topicPrior /\
    (forall t, (t < length vocabPrior)%nat -> rsum (col wp t) = rsum (col W t) + INR (length topicPrior) * nth t vocabPrior 0) /\
    (forall k, (k < length topicPrior)%nat -> nth k topicPrior 0 <= nth k cp 0) /\
    (forall k t, (k < length topicPrior)%nat -> (t < length vocabPrior)%nat ->
       nth t vocabPrior 0 <= nth t (nth k wp []) 0).

  Lemma nth_map_seq' : forall {A} (f : nat -> A) n j d, (j < n)%nat -> nth j (map f (seq 0 n)) d = f j.
  Proof.
    intros A f n j d H. rewrite nth_indep with (d' := f 0%nat) by (rewrite map_length, seq_length; exact H).
    rewrite map_nth, seq_nth by exact H. reflexivity.
  Qed.

  Lemma m_step_totals : forall W tops topicPrior vocabPrior,
    length tops = length W -> Forall (dist (length topicPrior)) tops ->
    Forall (Forall (fun x => 0 <= x)) W ->
    trained_totals W topicPrior vocabPrior (new_words W tops (length topicPrior) vocabPrior) (new_corpus tops topicPrior).
  Proof.
    intros W tops tp vp L D P. unfold trained_totals, new_words, new_corpus.
    assert (NN : forall k i, 0 <= nth k (nth i tops []) 0).
    { intros k i. destruct (nth_in_or_default i tops []) as [I| ->]; [|destruct k; cbn; lra].
      rewrite Forall_forall in D. destruct (D _ I) as (_ & F & _).
      destruct (nth_in_or_default k (nth i tops []) 0) as [J| ->]; [|lra].
      rewrite Forall_forall in F. left. apply F, J. }
    assert (NW : forall t i, 0 <= nth t (nth i W []) 0).
    { intros t i. destruct (nth_in_or_default i W []) as [I| ->]; [|destruct t; cbn; lra].
      rewrite Forall_forall in P. specialize (P _ I). rewrite Forall_forall in P.
      destruct (nth_in_or_default t (nth i W []) 0) as [J| ->]; [apply P, J|lra]. }
    repeat split.
    - rewrite map_length, seq_length. reflexivity.
    - rewrite map_length, seq_length. reflexivity.
    - rewrite Forall_forall. intros row I. apply in_map_iff in I. destruct I as [k [<- _]].
      rewrite map_length, seq_length. reflexivity.
    - rewrite rsum_plus, rsum_nth. f_equal. unfold col. rewrite rsum_swap. rewrite <- L.
      rewrite (rsum_ext _ (fun _ => 1)); [rewrite rsum_const; lra|].
      intros row I. rewrite Forall_forall in D. destruct (D row I) as (Lr & _ & S). rewrite <- Lr, rsum_nth. exact S.
    - intros t T. unfold col at 1. rewrite map_map.
      rewrite (rsum_ext _ (fun k => dot (col W t) (col tops k) + nth t vp 0)).
      2:{ intros k _. rewrite nth_map_seq' by exact T. reflexivity. }
      rewrite rsum_plus, rsum_const, seq_length. f_equal.
      rewrite (rsum_ext _ (fun k => rsum (map (fun i => nth i (col W t) 0 * nth k (nth i tops []) 0) (seq 0 (length W))))).
      2:{ intros k _. rewrite (dot_seq _ _ (length W)) by (rewrite ?col_length; congruence).
          apply rsum_ext. intros i I. apply in_seq in I. f_equal. apply col_nth. lia. }
      rewrite rsum_swap. rewrite (rsum_ext _ (fun i => nth i (col W t) 0)).
      { rewrite <- (col_length W t) at 1. apply rsum_nth. }
      intros i I. apply in_seq in I.
      rewrite Forall_forall in D. destruct (D (nth i tops [])) as (Lr & _ & S); [apply nth_In; lia|].
      pose proof (rsum_nth (nth i tops [])) as R. rewrite Lr, S in R.
      rewrite <- (map_map (fun k => nth k (nth i tops []) 0) (fun x => nth i (col W t) 0 * x)), rsum_scale, R. lra.
    - intros k K. rewrite nth_map_seq' by exact K.
      assert (0 <= rsum (col tops k)); [|lra]. apply rsum_nonneg. unfold col. rewrite Forall_forall. intros x I.
      apply in_map_iff in I. destruct I as [row [<- I]]. destruct (In_nth tops row [] I) as (i & _ & <-). apply NN.
    - intros k t K T. rewrite nth_map_seq' by exact K. rewrite nth_map_seq' by exact T.
      assert (0 <= dot (col W t) (col tops k)); [|lra].
      rewrite (dot_seq _ _ (length W)) by (rewrite ?col_length; congruence).
      apply rsum_nonneg. rewrite Forall_forall. intros x I. apply in_map_iff in I. destruct I as [i [<- I]].
      apply in_seq in I. rewrite !col_nth by lia. apply Rmult_le_pos; auto.
  Qed.

  (** Without measurements training never fails; the topics are distributions, and
      the model is the given one or has the totals of the corpus plus the priors. *)
  Theorem C93_training : forall n W docLens topicPrior vocabPrior wp cp tops,
    Forall (fun l => 1 <= l) docLens -> topicPrior <> [] -> Forall (Forall (fun x => 0 <= x)) W ->
    length cp = length topicPrior -> length wp = length topicPrior ->
    exists wp' cp' tops', em_train (S n) false 0 W docLens topicPrior vocabPrior wp cp tops = Ok (wp', cp', tops') /\
      length tops' = length W /\ Forall (dist (length topicPrior)) tops' /\
      (wp' = wp /\ cp' = cp \/ trained_totals W topicPrior vocabPrior wp' cp').
  Proof.
    intros n W docLens tp vp wp cp tops Hl N P Lc Lw. unfold MixModel.em_train.
    replace (existsb (fun l => rltb l 1) docLens) with false.
    2:{ symmetry. induction Hl as [|l ls H _ IH]; [reflexivity|]. cbn. rewrite IH.
        assert (rltb l 1 = false) as -> by (apply rltb_false; lra). reflexivity. }
    assert (G : forall n itr wp0 cp0 tops0, length cp0 = length tp -> length wp0 = length tp ->
       (wp0 = wp /\ cp0 = cp \/ trained_totals W tp vp wp0 cp0) ->
       (n <> 0%nat \/ length tops0 = length W /\ Forall (dist (length tp)) tops0) ->
       exists wp' cp' tops', em_loop psi n itr false 0 W tp vp wp0 cp0 tops0 = Ok (wp', cp', tops') /\
         length tops' = length W /\ Forall (dist (length tp)) tops' /\
         (wp' = wp /\ cp' = cp \/ trained_totals W tp vp wp' cp')).
    { clear n tops. induction n as [|n IH]; intros itr wp0 cp0 tops0 L1 L2 I T.
      - exists wp0, cp0, tops0. destruct T as [T|[T1 T2]]; [congruence|]. repeat split; auto.
      - cbn [em_loop]. destruct (e_step_ok W wp0 cp0) as (tops1 & E & Lt & F).
        { intros K. subst cp0. destruct tp; [congruence|discriminate L1]. }
        { congruence. }
        rewrite E. cbn [bind]. rewrite L1 in F.
        destruct (small_change tops0 tops1 (length W) (length tp)).
        + exists wp0, cp0, tops1. repeat split; auto.
        + cbn [measures orb andb Nat.ltb Nat.leb]. pose proof (m_step_totals W tops1 tp vp Lt F P) as T1.
          apply IH; auto.
          * apply T1.
          * apply T1. }
    apply G; auto.
  Qed.

  (** Empty documents are refused before anything is done. *)
  Theorem C93_empty_documents_refused : forall n debug lf W docLens topicPrior vocabPrior wp cp tops,
    Exists (fun l => l < 1) docLens ->
    em_train n debug lf W docLens topicPrior vocabPrior wp cp tops = Raise ValueError.
  Proof.
    intros n debug lf W docLens tp vp wp cp tops H. unfold MixModel.em_train.
    replace (existsb (fun l => rltb l 1) docLens) with true; [reflexivity|].
    symmetry. apply existsb_exists. apply Exists_exists in H. destruct H as [l [I L]].
    exists l. split; [exact I|]. apply rltb_true, L.
  Qed.

  (** ** C96: measuring while training *)
  (** Whenever the first iteration changes the topics enough for training to go
      on, a plan that logs (the default one does) raises. *)
  Theorem C96_measuring_fails : forall n debug lf W docLens topicPrior vocabPrior wp cp tops tops',
    Forall (fun l => 1 <= l) docLens -> (debug = true \/ (0 < lf)%nat) ->
    e_step W wp cp = Ok tops' ->
    small_change tops tops' (length W) (length topicPrior) = false ->
    em_train (S n) debug lf W docLens topicPrior vocabPrior wp cp tops = Raise AttributeError.
  Proof.
    intros n debug lf W docLens tp vp wp cp tops tops' Hl Hm E C. unfold MixModel.em_train.
    replace (existsb (fun l => rltb l 1) docLens) with false.
    2:{ symmetry. induction Hl as [|l ls H _ IH]; [reflexivity|]. cbn. rewrite IH.
        assert (rltb l 1 = false) as -> by (apply rltb_false; lra). reflexivity. }
    cbn [em_loop]. rewrite E. cbn [bind]. rewrite C.
    replace (measures debug lf 0) with true; [reflexivity|].
    unfold measures. destruct debug; [reflexivity|]. destruct Hm as [Hm|Hm]; [discriminate Hm|].
    destruct lf as [|lf]; [lia|]. cbn [orb]. rewrite Nat.mod_0_l by lia. reflexivity.
  Qed.

  (** ** C94: querying the mixture *)
  (** The result is one E-step from the model: the same for every number of
      iterations but zero, and whatever state the query starts from. *)
  Theorem C94_query_result : forall n W wp cp tops, cp <> [] -> length wp = length cp ->
    exists r, em_query (S n) W wp cp tops = Ok r /\ e_step W wp cp = Ok r /\
      length r = length W /\ Forall (dist (length cp)) r.
  Proof.
    intros n W wp cp tops N L. destruct (e_step_ok W wp cp N L) as (r & E & Lr & F).
    exists r. repeat split; auto. unfold MixModel.em_query.
    assert (G : forall n t, query_loop psi (S n) W wp cp t = Ok r).
    { clear n. induction n as [|n IH]; intros t; cbn [query_loop]; rewrite E; cbn [bind];
        destruct (small_change t r _ _); try reflexivity. specialize (IH r). cbn [query_loop] in IH.
      rewrite E in IH. exact IH. }
    rewrite G. reflexivity.
  Qed.
  Theorem C94_query_ignores_start : forall n m W wp cp tops tops', cp <> [] -> length wp = length cp ->
    em_query (S n) W wp cp tops = em_query (S m) W wp cp tops'.
  Proof.
    intros n m W wp cp tops tops' N L.
    destruct (C94_query_result n W wp cp tops N L) as (r & -> & E & _).
    destruct (C94_query_result m W wp cp tops' N L) as (r' & -> & E' & _). congruence.
  Qed.
  Theorem C94_zero_iterations_fail : forall W wp cp tops, em_query 0 W wp cp tops = Raise UnboundLocalError.
  Proof. reflexivity. Qed.
  Theorem C94_any_iteration_count_refuted : exists W wp cp tops,
    em_query 0 W wp cp tops = Raise UnboundLocalError /\ exists r, em_query 1 W wp cp tops = Ok r.
  Proof.
    exists [[1; 2]], [[1; 1]; [2; 1]], [1; 1], [[/2; /2]]. split; [reflexivity|].
    destruct (C94_query_result 0 [[1; 2]] [[1; 1]; [2; 1]] [1; 1] [[/2; /2]]) as (r & E & _); [discriminate|reflexivity|].
    exists r. exact E.
  Qed.
End EM.

(** ** Examples *)
Example C46_case_admixture :
  admixture_score (/100) [2%nat; 0%nat; 1%nat] [/2; /2] [[/2; /4; /4]; [/4; /4; /2]]
    = ln ((3/8) ^ 2 * (3/8)).
Proof.
  destruct (C46_admixture_is_log_probability (/100) [2%nat; 0%nat; 1%nat] [/2; /2] [[/2; /4; /4]; [/4; /4; /2]]) as [_ E].
  - lra.
  - intros [|[|[|t]]] n H; cbn in H; try discriminate; unfold dot, col; cbn; try lra. destruct t; discriminate.
  - rewrite E. f_equal. unfold admix, dot, col. cbn. lra.
Qed.
Example C97_case : point_like [[1%nat; 1%nat]; [0%nat; 2%nat]] None [1; 3] [[1; 1]; [1; 3]] (/100)
  = Ok (ln (/4 * (/2 * /2) + 3/4 * (/4 * (3/4))) + (ln (/4 * (/2 ^ 2) + 3/4 * ((3/4) ^ 2)) + 0)).
Proof.
  rewrite C97_point_likelihood.
  - f_equal. unfold normalised. cbn. f_equal; [f_equal; field|]. f_equal. f_equal. field.
  - lra.
  - discriminate.
  - reflexivity.
  - repeat constructor; cbn; lra.
  - discriminate.
  - intros _. unfold normalised; cbn. repeat constructor; lra.
Qed.
Example C98_case : perplexity_from_like (ln (/8)) 3 = 2.
Proof.
  unfold perplexity_from_like. replace (/8) with ((/2) ^ 3) by (cbn; lra). rewrite ln_pow' by lra.
  replace (- (INR 3 * ln (/2)) / 3) with (ln 2); [apply exp_ln; lra|].
  rewrite ln_Rinv by lra. cbn. field.
Qed.
Example C93_case : exists wp cp tops,
  em_train (fun x => x) 5 false 0 [[1; 1]; [3; 0]] [2; 3] [1; 1] [2; 2] [[1; 1]; [2; 1]] [1; 1] [] = Ok (wp, cp, tops) /\
  length tops = 2%nat.
Proof.
  destruct (C93_training (fun x => x) 4 [[1; 1]; [3; 0]] [2; 3] [1; 1] [2; 2] [[1; 1]; [2; 1]] [1; 1] [])
    as (wp & cp & tops & E & L & _); try discriminate; try reflexivity; try (repeat constructor; lra).
  exists wp, cp, tops. split; [exact E|exact L].
Qed.
(** Whatever the digamma function, the E-step gives equal topics here, far from where
    training started; 100 iterations and measuring every 10 are the defaults. *)
Theorem C96_default_training_succeeds_refuted : exists W docLens topicPrior vocabPrior wp cp tops, forall psi,
  em_train psi 100 false 10 W docLens topicPrior vocabPrior wp cp tops = Raise AttributeError.
Proof.
  exists [[1; 1]], [2], [1; 1], [1; 1], [[1; 1]; [1; 1]], [1; 1], [[1; 0]]. intros psi.
  eapply (C96_measuring_fails psi 99 false 10 _ _ _ _ _ _ _ [[/2; /2]]).
  - repeat constructor; lra.
  - right; lia.
  - unfold MixModel.e_step, softmax_row, ln_words, ln_corpus, add_rows, dot, softmax_args, max_of. cbn.
    match goal with |- context [Rmax ?a ?b] => rewrite (Rmax_left a b) by lra end. cbn.
    match goal with |- context [exp (?a - ?b)] => replace (a - b) with 0 by lra end. rewrite exp_0.
    repeat (f_equal; try lra).
  - unfold small_change, change. apply rltb_false. cbn.
    rewrite (Rabs_pos_eq (1 - /2)), (Rabs_left (0 - /2)) by lra. lra.
Qed.

Print Assumptions C46_admixture_is_log_probability.
Print Assumptions C46_admixture_floors_impossible_words.
Print Assumptions C46_admixture_not_positive.
Print Assumptions C46_mixture_score_value.
Print Assumptions C46_mixture_overestimates.
Print Assumptions C46_mixture_is_log_probability_refuted.
Print Assumptions C97_point_likelihood.
Print Assumptions C98_perplexity_is_inverse_mean_probability.
Print Assumptions C98_better_likelihood_lower_perplexity.
Print Assumptions C98_at_least_one.
Print Assumptions C95_expected_likelihood_of_prior.
Print Assumptions C95_expected_likelihood_of_posterior_fails.
Print Assumptions C95_expected_likelihood_refuted.
Print Assumptions C93_training.
Print Assumptions C93_empty_documents_refused.
Print Assumptions C96_measuring_fails.
Print Assumptions C96_default_training_succeeds_refuted.
Print Assumptions C94_query_result.
Print Assumptions C94_query_ignores_start.
Print Assumptions C94_zero_iterations_fail.
Print Assumptions C94_any_iteration_count_refuted.
