(** * C201-C202: what the Gibbs sampler of the mixture of multinomials samples from. *)
From Coq Require Import List ZArith QArith Qreals Reals Arith Bool Lra Lia.
From Verif Require GammaWitness.
From Verif Require Import Base RealModel RealProofs MixModel MixProofs VbModel VbProofs BoundSpec BoundProofs GammaProofs BoundMore StationSpec StationProofs.
From Verif Require Import MixBoundSpec MixBoundProofs MomModel MomSpec MomProofs MomLaw MomRuns GibbsModel.
Import ListNotations.
Open Scope nat_scope.

(** What the theorems of C201 ask for: the prior is above one, and not so far below its
    total that safe_log would cut it off. *)
Definition queryable (a : R) (K : nat) (W : list vec) (alpha : vec) : Prop :=
  0 < K /\ (0 < a)%R /\ (forall k, k < K -> (1 < alpha k)%R) /\
  (forall k, k < K -> (a * (INR (length W) - 1 + vsum K (fun k => alpha k - 1)) <= alpha k - 1)%R).

Section Query.
  Context (a : R) (K T : nat) (phi : nat -> vec) (W : list vec) (alpha : vec) (g : R -> R).
  Notation D := (length W).
  Notation A_ := (assignments K D).
  Notation moves := (mmoves a K T phi W alpha).
  Notation less := (fun k => (alpha k - 1)%R).
  (** safe_log takes probabilities below [a] for [a]. *)
  Notation floored := (fun k t => Rmax a (phi k t)).
  Notation post := (mix_posterior g K T less floored W).
  Hypothesis QR : queryable a K W alpha.
  Hypothesis G : gamma_like g.

  Lemma HK : 0 < K. Proof. apply QR. Qed.
  Lemma Pa : forall k, k < K -> (1 < alpha k)%R. Proof. apply QR. Qed.
  Lemma Zero : forall d k, d < D -> k < K -> (0 <= (fun _ _ : nat => 0%R) d k)%R. Proof. intros; lra. Qed.
  Lemma q_share d A A' : d < D -> In A A_ -> In A' A_ -> share (fun r => moves d A r A') (prob (fun d => d) (kq a K T phi W alpha (fun _ _ => 0%R)) d A A').
  Proof. intros. apply mom_share; try assumption; [exact HK|]. apply Rgt_not_eq, (rest_sum K W alpha _ HK Pa Zero). Qed.
  Lemma q_fits d : d < D -> fits K D (fun d => d) (kq a K T phi W alpha (fun _ _ => 0%R)) post d.
  Proof. destruct QR as (A1 & A2 & A3 & A4). apply post_fits; assumption. Qed.
  Lemma q_pos d A k : (0 < kq a K T phi W alpha (fun _ _ => 0%R) d A k)%R.
  Proof. apply mq_pos, HK. Qed.
  Lemma q_sum d A : vsum K (kq a K T phi W alpha (fun _ _ => 0%R) d A) = 1%R.
  Proof. apply mq_sum, HK. Qed.
  Lemma q_nonneg A : In A A_ -> (0 <= post A)%R.
  Proof. intros _. destruct QR as (A1 & A2 & A3 & A4). apply post_nonneg; assumption. Qed.
  Lemma q_total : BoundProofs.total K D post = 1%R.
  Proof. destruct QR as (A1 & A2 & A3 & A4). apply post_total; assumption. Qed.

  (** ** C201 *)
  (** The first sweep puts every document into a component. *)
  Theorem C201_first_sweep M0 (u : nat -> Q) : (forall d k, d < D -> k < K -> (0 <= M0 d k)%R) -> (forall d, d < D -> unit_draw (u d)) ->
    exists M A, sample_rows a K T phi W alpha (fun d => Q2R (u d)) M0 = Ok M /\ In A A_ /\ rows_of K W A M.
  Proof. apply first_sweep; [exact HK|exact Pa]. Qed.
  (** Every other sweep visits the documents in turn. *)
  Theorem C201_sweep_is_visits (u : nat -> Q) A M : (forall d, d < D -> unit_draw (u d)) -> In A A_ -> rows_of K W A M ->
    exists M' A', sample_rows a K T phi W alpha (fun d => Q2R (u d)) M = Ok M' /\ In A' A_ /\ in_turn a K T phi W alpha (seq 0 D) u A A' /\ rows_of K W A' M'.
  Proof. apply next_sweep; [exact HK|exact Pa]. Qed.
  (** A query returns the averages over the sweeps that are sampled. *)
  Theorem C201_query_is_average iterations burnIn thinning (u : nat -> nat -> Q) M0 : (0 < thinning)%Z -> (forall i d, d < D -> unit_draw (u i d)) ->
    (forall d k, d < D -> k < K -> (0 <= M0 d k)%R) ->
    let l := filter (sampled burnIn thinning) (seq 0 (Z.to_nat iterations)) in
    exists r z, mom_query_rows a K T phi W alpha (iterations, burnIn, thinning) (fun i d => Q2R (u i d)) M0 = Ok r /\
      In (z 0) A_ /\ (forall i, 0 < i < Z.to_nat iterations -> In (z i) A_ /\ in_turn a K T phi W alpha (seq 0 D) (u i) (z (i - 1)) (z i)) /\
      match r with
      | None => l = []
      | Some rows => l <> [] /\ forall d k, d < D -> k < K -> rows d k = average (is_in d k) (map z l)
      end.
  Proof. intros Ht U. apply query_all; try assumption; [exact HK|exact Pa]. Qed.

  (** What the sweeps keep is the posterior for a prior that is one less than the model's. *)
  Theorem C201_posterior_kept n : (exists mu, after K D moves (sweeps D n) post mu) /\
    forall mu, after K D moves (sweeps D n) post mu -> forall A, In A A_ -> mu A = post A.
  Proof.
    split; [eapply sw_exists, q_share|]. intros mu AF. eapply sw_kept; [exact HK|exact q_share|exact q_fits|exact AF].
  Qed.
  Theorem C201_forgets_start e : (0 < e)%R ->
    exists n0, forall n A0 mu, n0 <= n -> In A0 A_ -> after K D moves (sweeps D n) (certainly A0) mu -> (apart K D mu post < e)%R.
  Proof. apply (sw_forgets K D HK _ moves post q_share q_fits q_pos q_sum q_nonneg q_total). Qed.
  (** The averages of a query, from whatever the first sweep gave: the mean square error
      is at most a constant over the number of samples, whatever the plan. *)
  Theorem C201_averages_converge : exists C, forall iterations burnIn thinning d k A0 x,
    let l := filter (sampled burnIn thinning) (seq 0 iterations) in
    l <> [] -> In A0 A_ ->
    expects K D moves (rounds D (gaps 0 l)) A0
      (fun path => (average (is_in d k) path - mean K D post (is_in d k)) * (average (is_in d k) path - mean K D post (is_in d k)))%R x ->
    (x <= C / INR (length l))%R.
  Proof.
    destruct (sw_averages K D HK _ moves post q_share q_fits q_pos q_sum q_nonneg q_total) as (C & H). exists C.
    intros iterations burnIn thinning d k A0 x l NE HA EX. rewrite <- (gaps_length l 0). apply (H (gaps 0 l) A0 (is_in d k)).
    - destruct l; [congruence|discriminate].
    - apply gaps_sampled.
    - exact HA.
    - intros A _. unfold is_in. destruct (_ =? _); lra.
    - exact EX.
  Qed.
  Theorem C201_averages_defined ns A0 F : exists x, expects K D moves (rounds D ns) A0 F x.
  Proof. eapply sw_expects, q_share. Qed.
  (** When no word is below [a] in any component the words are as the model says. *)
  Theorem C201_words_as_given : (forall k t, t < T -> (a <= phi k t)%R) -> forall A, post A = mix_posterior g K T less phi W A.
  Proof.
    intros H A. assert (E : forall z, mix_given g K T less floored W z = mix_given g K T less phi W z).
    { intros z. unfold mix_given. f_equal. f_equal. apply map_ext. intros [doc k]. unfold doc_prob. f_equal. apply map_ext_in. intros t Ht. apply in_seq in Ht.
      rewrite Rmax_right by (apply H; lia). reflexivity. }
    unfold mix_posterior. rewrite E. f_equal. f_equal. apply map_ext. exact E.
  Qed.
End Query.

(** The prior is not the model's: one document, two components of which the second
    is three parts in five before the words are seen, and words that tell nothing. *)
Definition alpha23 : vec := fun k => if k =? 0 then 2%R else 3%R.
Definition flat : nat -> vec := fun _ _ => 1%R.
Definition one_doc : list vec := [fun _ => 1%R].
Lemma flat_prob doc k : doc_prob 1 (fun t => Rmax (1/10) (flat k t)) doc = 1%R.
Proof. unfold doc_prob, flat. cbn [seq map fold_right]. rewrite Rmax_right by lra. unfold Rpower. rewrite ln_1, Rmult_0_r, exp_0. ring. Qed.
Lemma q23 : queryable (1/10) 2 one_doc alpha23.
Proof.
  split; [lia|]. split; [lra|]. unfold vsum, alpha23, one_doc. cbn [seq map rsum Nat.eqb length]. change (INR 1) with 1%R.
  split; intros [|[|k]] Hk; try lia; cbn [Nat.eqb]; lra.
Qed.
Lemma kq23 x k : x < 2 -> k < 2 -> kq (1/10) 2 1 flat one_doc alpha23 (fun _ _ => 0%R) 0 [x] k = ((alpha23 k - 1) / 3)%R.
Proof.
  intros Hx Hk. assert (HA : In [x] (assignments 2 (length one_doc))) by (apply in_assignments; split; [reflexivity|constructor; [exact Hx|constructor]]).
  pose proof q23 as (A1 & A2 & A3 & A4).
  assert (E : forall k, k < 2 -> exp (weight_of (1/10) 2 1 flat one_doc alpha23 (fun _ _ => 0%R) (1%nat, 0%nat) [x] k) = ((alpha23 k - 1) / 3)%R).
  { intros j Hj. rewrite (exp_weight (1/10) 2 1 flat one_doc alpha23 GammaWitness.lnGamma A1 GammaWitness.lnGamma_rec A3 A2 A4 0 [x] j ltac:(cbn; lia) HA Hj).
    rewrite flat_prob, Rmult_1_l. unfold rest, alpha23, vsum, one_doc. cbn [length seq map rsum Nat.eqb snd]. destruct j as [|[|j]]; [| |lia]; cbn [Nat.eqb]; field. }
  unfold kq, mq, soft. rewrite E by exact Hk. rewrite (vsum_ext 2 _ (fun j => (alpha23 j - 1) / 3)%R) by exact E.
  unfold vsum, alpha23. cbn [seq map rsum Nat.eqb]. field.
Qed.
Theorem C201_own_posterior_refuted : exists a K T phi W alpha, queryable a K W alpha /\
  forall g n A0 mu, gamma_like g -> 0 < n -> In A0 (assignments K (length W)) ->
    after K (length W) (mmoves a K T phi W alpha) (sweeps (length W) n) (certainly A0) mu ->
    mu [0] = (1 / 3)%R /\ mix_posterior g K T alpha phi W [0] = (2 / 5)%R.
Proof.
  exists (1/10)%R, 2, 1, flat, one_doc, alpha23. split; [exact q23|]. intros g n A0 mu G Hn HA AF. split.
  - pose proof q23 as QR. pose proof QR as (A1 & A2 & A3 & A4).
    rewrite (after_steps 2 1 (fun d => d) (kq (1/10) 2 1 flat one_doc alpha23 (fun _ _ => 0%R)) _ _ _ _
      (fun v Hv A A' HA HA' => q_share (1/10) 2 1 flat one_doc alpha23 QR v A A' (sweeps_in 1 n v Hv) HA HA') AF [0])
      by (apply in_assignments; split; [reflexivity|repeat constructor]).
    destruct n as [|n]; [lia|]. rewrite (sweeps_S 1 n), steps_app. cbn [seq steps fold_left]. unfold step.
    set (nu := steps _ _ _ _ _ _).
    rewrite (total_ext_in 2 1 _ (fun A => 1 / 3 * nu A)%R).
    + rewrite total_scale. unfold nu. rewrite steps_total.
      * rewrite certainly_total by exact HA. lra.
      * intros v Hv. apply sweeps_in in Hv. split; [exact Hv|]. intros A _. split; [intros; left; apply (q_pos (1/10) 2 1 flat one_doc alpha23 QR)|apply (q_sum (1/10) 2 1 flat one_doc alpha23 QR)].
    + intros A HA'. apply in_assignments in HA' as [L F]. destruct A as [|x [|y A]]; try discriminate L. inversion F; subst.
      unfold prob. cbn [nth put]. rewrite eqa_refl, kq23 by lia. unfold alpha23. cbn [Nat.eqb]. field.
  - unfold mix_posterior. assert (E : forall k, k < 2 -> mix_given g 2 1 alpha23 flat one_doc [k] = (alpha23 k / 5)%R).
    { intros k Hk. unfold mix_given. rewrite (lnB_bump g G 2 alpha23 _ k Hk).
      - replace (lnB g 2 alpha23 + ln (alpha23 k / vsum 2 alpha23) - lnB g 2 alpha23)%R with (ln (alpha23 k / vsum 2 alpha23)) by ring.
        unfold one_doc. cbn [combine map fold_right]. unfold doc_prob, flat. cbn [seq map fold_right]. unfold Rpower. rewrite ln_1, Rmult_0_r, exp_0.
        unfold vsum. cbn [seq map rsum]. unfold alpha23. rewrite exp_ln; destruct k as [|[|k]]; try lia; cbn [Nat.eqb]; lra.
      - intros [|[|i]] Hi; try lia; unfold alpha23; cbn [Nat.eqb]; lra.
      - unfold one_doc, of_topic. cbn [map combine rsum]. rewrite Nat.eqb_refl. ring.
      - intros i Hi N. unfold one_doc, of_topic. cbn [map combine rsum]. rewrite (proj2 (Nat.eqb_neq k i)) by congruence. ring. }
    change (assignments 2 (length one_doc)) with [[0]; [1]]. cbn [map rsum]. rewrite !E by lia. unfold alpha23. cbn [Nat.eqb]. field.
Qed.

(** ** C202 *)
(** The other documents in component [k]. *)
Definition others (D d : nat) (A : list nat) (k : nat) : R := vsum D (fun d' => if d' =? d then 0%R else is_in d' k A).
(** The total that the prior parts of the components are taken of. *)
Definition prior_total (D K : nat) (alpha : vec) : R := (INR D - 1 + vsum K (fun k => alpha k - 1))%R.

Section Chances.
  Context (a : R) (K T : nat) (phi : nat -> vec) (W : list vec) (alpha : vec).
  Notation D := (length W).
  Notation A_ := (assignments K D).
  Notation moves := (mmoves a K T phi W alpha).
  Notation S_ := (prior_total D K alpha).
  Definition likely (d : nat) (A : list nat) (k : nat) : R :=
    (doc_prob T (fun t => Rmax a (phi k t)) (nth d W (fun _ => 0%R)) * Rmax a ((others D d A k + alpha k - 1) / S_))%R.
  Hypothesis HK : 0 < K.
  Hypothesis A0 : (0 < a)%R.

  Lemma rest_others d A k : rest W alpha (fun _ _ => 0%R) (1%nat, d) A k = (others D d A k + alpha k - 1)%R.
  Proof using. unfold rest, others. cbn [snd]. f_equal. f_equal. apply vsum_ext. intros d' _. destruct (d' =? d); [reflexivity|]. unfold cur. cbn [fst snd Nat.eqb andb]. apply one_hot_in. Qed.
  Lemma exp_likely d A k : d < D -> In A A_ -> exp (weight_of a K T phi W alpha (fun _ _ => 0%R) (1%nat, d) A k) = likely d A k.
  Proof.
    intros Hd HA. unfold weight_of, likely. cbn [snd]. rewrite exp_plus, score_prob. f_equal. rewrite (rest_total K W alpha HK d A Hd HA), rest_others.
    fold S_. unfold safe_ln. destruct (rleb a _) eqn:E; [apply rleb_true in E; rewrite Rmax_right by exact E|apply rleb_false in E; rewrite Rmax_left by lra]; apply exp_ln; lra.
  Qed.
  (** The chance of each component, whatever the prior, when the total is not zero. *)
  Theorem C202_chance_of_component d A k : (S_ <> 0)%R -> d < D -> In A A_ -> k < K ->
    share (fun r => moves d A r (put d k A)) (likely d A k / vsum K (likely d A))%R.
  Proof.
    intros NZ Hd HA Hk. pose proof HA as [L _]%in_assignments.
    assert (E : prob (fun d => d) (kq a K T phi W alpha (fun _ _ => 0%R)) d A (put d k A) = (likely d A k / vsum K (likely d A))%R).
    { unfold prob. rewrite put_same by lia. rewrite eqa_refl. unfold kq, mq, soft. rewrite exp_likely by assumption. f_equal. apply vsum_ext. intros. apply exp_likely; assumption. }
    rewrite <- E. apply mom_share; [exact HK| |exact Hd|exact HA|apply put_in; assumption]. rewrite (rest_total K W alpha HK d A Hd HA). exact NZ.
  Qed.
  (** With a positive total, the more members the likelier; and an empty component for
      which the prior is at most one has the least weight there is. *)
  Theorem C202_more_members_more_likely d A k j : (0 < S_)%R ->
    doc_prob T (fun t => Rmax a (phi k t)) (nth d W (fun _ => 0%R)) = doc_prob T (fun t => Rmax a (phi j t)) (nth d W (fun _ => 0%R)) ->
    (others D d A j + alpha j <= others D d A k + alpha k)%R -> (likely d A j <= likely d A k)%R.
  Proof.
    intros P E H. unfold likely. rewrite E. apply Rmult_le_compat_l.
    - unfold doc_prob, Rpower. left. change (0 < rprod' (map (fun t => exp (nth d W (fun _ => 0%R) t * ln (Rmax a (phi j t)))) (seq 0 T)))%R.
      rewrite (rprod'_exp (fun t => nth d W (fun _ => 0%R) t * ln (Rmax a (phi j t)))%R). apply exp_pos.
    - apply Rle_max_compat_l. apply Rmult_le_compat_r; [left; apply Rinv_0_lt_compat; exact P|lra].
  Qed.
  Theorem C202_empty_component_least d A k : (0 < S_)%R -> others D d A k = 0%R -> (alpha k <= 1)%R ->
    likely d A k = (doc_prob T (fun t => Rmax a (phi k t)) (nth d W (fun _ => 0%R)) * a)%R.
  Proof.
    clear HK. intros P E H. unfold likely. f_equal. rewrite E. apply Rmax_left. apply Rle_trans with 0%R; [|lra].
    assert (0 <= (1 - alpha k) * / S_)%R by (apply Rmult_le_pos; [lra|left; apply Rinv_0_lt_compat; exact P]). unfold Rdiv. lra.
  Qed.
  (** With a negative total it is the components with members that have it. *)
  Theorem C202_members_repel d A k : (S_ < 0)%R -> (1 <= others D d A k)%R -> (0 < alpha k)%R ->
    likely d A k = (doc_prob T (fun t => Rmax a (phi k t)) (nth d W (fun _ => 0%R)) * a)%R.
  Proof.
    clear HK. intros P E H. unfold likely. f_equal. apply Rmax_left. apply Rle_trans with 0%R; [|lra].
    assert (0 < / - S_)%R by (apply Rinv_0_lt_compat; lra). unfold Rdiv. replace (/ S_)%R with (- / - S_)%R by (rewrite Rinv_opp; ring).
    assert (0 <= (others D d A k + alpha k - 1) * / - S_)%R by (apply Rmult_le_pos; lra). lra.
  Qed.
End Chances.

(** The prior that the model takes when none is given: with fewer than ten components
    it is above one. *)
Theorem C202_default_prior_up_to_nine K k : 0 < K -> ((1 < default_prior K k)%R <-> K < 10).
Proof.
  intros H. unfold default_prior. assert (P : (0 < INR K)%R) by (apply lt_0_INR; lia).
  assert (X : (1 < 5 / INR K + 5 / 10)%R <-> (INR K < 10)%R).
  { split; intros H1.
    - assert (Y : (5 / INR K * INR K = 5)%R) by (field; lra). assert (1 / 2 * INR K < 5 / INR K * INR K)%R by (apply Rmult_lt_compat_r; lra). lra.
    - apply Rmult_lt_reg_r with (INR K); [exact P|]. replace ((5 / INR K + 5 / 10) * INR K)%R with (5 + INR K / 2)%R by (field; lra). lra. }
  rewrite X. replace 10%R with (INR 10) by (cbn; lra). split; [apply INR_lt|apply lt_INR].
Qed.
Lemma default_total D K : 0 < K -> prior_total D K (default_prior K) = (INR D - 1 + 5 - INR K / 2)%R.
Proof. intros H. unfold prior_total, default_prior. rewrite vsum_const. assert (0 < INR K)%R by (apply lt_0_INR; lia). field. lra. Qed.

(** Twenty components and three documents with nothing to tell the components apart:
    the third document goes to an empty component rather than to the other two. *)
Theorem C202_default_prior_gathers_refuted : exists K T phi W A d k j,
  In A (assignments K (length W)) /\ d < length W /\ k < K /\ j < K /\ (forall i t, phi i t = 1%R) /\
  others (length W) d A k = 2%R /\ others (length W) d A j = 0%R /\
  forall a, (0 < a < 1 / 12)%R -> exists p q, (p < q)%R /\ (q = p / (12 * a))%R /\
    share (fun r => mmoves a K T phi W (default_prior K) d A r (put d k A)) p /\
    share (fun r => mmoves a K T phi W (default_prior K) d A r (put d j A)) q.
Proof.
  set (W := repeat (fun _ : nat => 1%R) 3 : list vec).
  exists 20, 1, flat, W, [0; 0; 0], 2, 0, 1.
  assert (HA : In [0; 0; 0] (assignments 20 (length W))) by (apply in_assignments; split; [reflexivity|repeat constructor; lia]).
  split; [exact HA|]. split; [cbn; lia|]. split; [lia|]. split; [lia|]. split; [reflexivity|].
  assert (O0 : others (length W) 2 [0; 0; 0] 0 = 2%R) by (unfold others, vsum, is_in; cbn; lra).
  assert (O1 : others (length W) 2 [0; 0; 0] 1 = 0%R) by (unfold others, vsum, is_in; cbn; lra).
  split; [exact O0|]. split; [exact O1|]. intros a [A0 A1].
  assert (ES : prior_total (length W) 20 (default_prior 20) = (-3)%R).
  { rewrite default_total by lia. unfold W. cbn [repeat length]. replace (INR 3) with 3%R by (cbn; lra). replace (INR 20) with 20%R by (cbn; lra). lra. }
  assert (DP : forall k, doc_prob 1 (fun t => Rmax a (flat k t)) (nth 2 W (fun _ => 0%R)) = 1%R).
  { intros k. unfold doc_prob, flat. cbn [seq map fold_right]. rewrite Rmax_right by lra. unfold Rpower. rewrite ln_1, Rmult_0_r, exp_0. ring. }
  set (w := likely a 20 1 flat W (default_prior 20) 2 [0; 0; 0]).
  assert (DF : forall k, default_prior 20 k = (3 / 4)%R) by (intros; unfold default_prior; replace (INR 20) with 20%R by (cbn; lra); lra).
  assert (W0 : w 0 = a).
  { unfold w. rewrite (C202_members_repel a 20 1 flat W (default_prior 20) A0 2 [0; 0; 0] 0); [rewrite DP; ring|rewrite ES; lra|rewrite O0; lra|rewrite DF; lra]. }
  assert (W1 : w 1 = (1 / 12)%R).
  { unfold w, likely. rewrite DP, O1, ES, DF. rewrite Rmax_right; [field|lra]. }
  assert (WP : forall k, (0 < w k)%R).
  { intros k. unfold w, likely. rewrite DP, Rmult_1_l. eapply Rlt_le_trans; [exact A0|apply Rmax_l]. }
  assert (PV : (0 < vsum 20 w)%R) by (apply vsum_pos; [lia|intros; apply WP]).
  exists (w 0%nat / vsum 20 w)%R, (w 1%nat / vsum 20 w)%R. split.
  - apply Rmult_lt_compat_r; [apply Rinv_0_lt_compat, PV|]. rewrite W0, W1. lra.
  - split; [rewrite W0, W1; field; lra|].
    split; (apply C202_chance_of_component; [lia|exact A0|rewrite ES; lra|cbn; lia|exact HA|lia]).
Qed.

(** With eight more components than twice the documents the total is zero, and every
    sweep but the first fails. *)
Lemma raise_stays {S X} (f : S -> X -> res S) l e : fold_left (fun rs x => do s <- rs; f s x) l (Raise e) = Raise e.
Proof. induction l as [|x l IH]; [reflexivity|exact IH]. Qed.
Theorem C202_default_prior_fails : forall a T phi (W : list vec) K, 2 <= length W -> K = 2 * length W + 8 ->
  forall A M u, In A (assignments K (length W)) -> rows_of K W A M ->
    sample_rows a K T phi W (default_prior K) u M = Raise ValueError.
Proof.
  intros a T phi W K HD EK A M u HA RW. pose proof HA as [L F]%in_assignments.
  set (p1 := fun k => (prior_num W (default_prior K) M k - M 0%nat k)%R).
  assert (E1 : forall k, k < K -> p1 k = (others (length W) 0 A k + default_prior K k - 1)%R).
  { intros k Hk. unfold p1, prior_num. rewrite (vsum_split (length W) 0 (fun d => M d k)) by lia. unfold others.
    rewrite (vsum_ext (length W) (fun i => if i =? 0 then 0 else M i k)%R (fun d' => if d' =? 0 then 0 else is_in d' k A)%R); [ring|].
    intros i Hi. destruct (i =? 0); [reflexivity|]. apply RW; assumption. }
  assert (ES : vsum K p1 = 0%R).
  { rewrite (vsum_ext K p1 (rest W (default_prior K) (fun _ _ => 0%R) (1%nat, 0%nat) A)) by (intros; rewrite rest_others; apply E1; assumption).
    rewrite (rest_total K W (default_prior K) ltac:(lia) 0 A ltac:(lia) HA). fold (prior_total (length W) K (default_prior K)). rewrite default_total by lia.
    rewrite EK, plus_INR, mult_INR. replace (INR 8) with 8%R by (cbn; lra). change (INR 2) with (1 + 1)%R. lra. }
  assert (EX : existsb (fun k => rltb 0 (p1 k)) (seq 0 K) = true).
  { assert (X : nth 1 A 0 < K) by (eapply nth_in; [lia|exact HA]). apply existsb_exists. exists (nth 1 A 0). split; [apply in_seq; lia|]. apply rltb_true. rewrite E1 by exact X.
    assert (1 <= others (length W) 0 A (nth 1 A 0%nat))%R.
    { unfold others. eapply Rle_trans; [|apply (vsum_in_le (length W) (fun d' => if d' =? 0 then 0 else is_in d' (nth 1 A 0%nat) A)%R 1)].
      - cbn [Nat.eqb]. unfold is_in. rewrite Nat.eqb_refl. lra.
      - intros i _. destruct (i =? 0); [lra|]. unfold is_in. destruct (_ =? _); lra.
      - lia. }
    unfold default_prior. assert (0 < 5 / INR K)%R by (apply Rdiv_lt_0_compat; [lra|apply lt_0_INR; lia]). lra. }
  unfold sample_rows. destruct (length W) as [|D] eqn:ED; [lia|]. cbn [seq fold_left bind]. unfold mom_visit at 2. cbv zeta. fold p1. unfold log_prior.
  destruct (Req_EM_T (vsum K p1) 0) as [_|N]; [|contradiction]. rewrite EX. cbn [bind].
  rewrite (raise_stays (fun st d => mom_visit a K T phi W d (u d) st)). reflexivity.
Qed.
Theorem C202_default_prior_works_refuted : exists K W A M, K = 16 /\ length W = 4 /\ In A (assignments K (length W)) /\ rows_of K W A M /\
  forall a T phi u, sample_rows a K T phi W (default_prior K) u M = Raise ValueError.
Proof.
  exists 16, (repeat (fun _ => 1%R) 4), [0; 1; 2; 3], (fun d k => is_in d k [0; 1; 2; 3]).
  assert (HA : In [0; 1; 2; 3] (assignments 16 (length (repeat (fun _ : nat => 1%R) 4)))) by (apply in_assignments; split; [reflexivity|repeat constructor; lia]).
  split; [reflexivity|]. split; [reflexivity|]. split; [exact HA|]. split; [intros d k _ _; reflexivity|]. intros a T phi u.
  apply (C202_default_prior_fails a T phi (repeat (fun _ => 1%R) 4) 16 ltac:(cbn; lia) eq_refl [0; 1; 2; 3]); [exact HA|intros d k _ _; reflexivity].
Qed.

(** ** Cases *)
Example C201_case : queryable (1/1000) 3 (repeat (fun _ => 2%R) 5) (default_prior 3) /\ gamma_like GammaWitness.lnGamma /\
  filter (sampled 2 2) (seq 0 9) = [4; 6; 8] /\ gaps 0 [4; 6; 8] = [4; 2; 2] /\ unit_draw (1 # 3).
Proof.
  split; [|split; [exact GammaWitness.lnGamma_rec|split; [reflexivity|split; [reflexivity|split; reflexivity || discriminate]]]].
  assert (E : forall k, default_prior 3 k = (13 / 6)%R) by (intros; unfold default_prior; replace (INR 3) with 3%R by (cbn; lra); lra).
  split; [lia|]. split; [lra|]. split; [intros; rewrite E; lra|]. intros k _. rewrite (vsum_ext 3 _ (fun _ => 7 / 6)%R) by (intros; rewrite E; lra).
  rewrite vsum_const, E. rewrite repeat_length. replace (INR 3) with 3%R by (cbn; lra). replace (INR 5) with 5%R by (cbn; lra). lra.
Qed.
(** The sampler at work: two documents with different words. *)
Example C202_case : exists W : list vec, length W = 2 /\ In [0; 1] (assignments 2 (length W)) /\ prior_total (length W) 2 (default_prior 2) = 5%R /\
  others (length W) 0 [0; 1] 1 = 1%R /\ others (length W) 0 [0; 1] 0 = 0%R.
Proof.
  exists [fun t => INR t; fun t => INR (1 - t)]. split; [reflexivity|]. split; [apply in_assignments; split; [reflexivity|repeat constructor]|].
  split; [rewrite default_total by lia; cbn; lra|]. split; unfold others, vsum, is_in; cbn; lra.
Qed.

Print Assumptions C201_first_sweep.
Print Assumptions C201_sweep_is_visits.
Print Assumptions C201_query_is_average.
Print Assumptions C201_posterior_kept.
Print Assumptions C201_forgets_start.
Print Assumptions C201_averages_converge.
Print Assumptions C201_averages_defined.
Print Assumptions C201_words_as_given.
Print Assumptions C201_own_posterior_refuted.
Print Assumptions C202_chance_of_component.
Print Assumptions C202_more_members_more_likely.
Print Assumptions C202_empty_component_least.
Print Assumptions C202_members_repel.
Print Assumptions C202_default_prior_up_to_nine.
Print Assumptions C202_default_prior_gathers_refuted.
Print Assumptions C202_default_prior_fails.
Print Assumptions C202_default_prior_works_refuted.
