(** * C225: the bound of the models with Böhning's bound *)
From Coq Require Import List Reals Arith Bool Lra Lia Psatz.
From Verif Require Import Base RealModel VbModel VbProofs LinkModel LinkProps CtmModel CtmProofs MomModel StationProofs BohBoundModel.
From Verif Require HyperProps BoundProofs MtmModel.
Import ListNotations.
Open Scope nat_scope.

(** The probability of a corpus when every document has topics drawn from a law with
    finitely many values, a list of probabilities and topics. *)
Definition word_prob (K : nat) (vocab : mat) (theta : vec) (t : nat) : R := vsum K (fun k => theta k * vocab k t)%R.
Fixpoint prod (m : nat) (f : nat -> R) : R := match m with 0 => 1%R | S i => (prod i f * f i)%R end.
Definition doc_prob (K T : nat) (vocab : mat) (w : vec) (theta : vec) : R := prod T (fun t => Rpower (word_prob K vocab theta t) (w t)).
Definition corpus_prob (K D T : nat) (vocab W : mat) (law : list (R * vec)) : R :=
  prod D (fun d => fold_right Rplus 0%R (map (fun '(p, theta) => (p * doc_prob K T vocab (W d) theta)%R) law)).
Definition distribution (m : nat) (p : vec) : Prop := (forall i, i < m -> (0 <= p i)%R) /\ vsum m p = 1%R.
Definition is_law (K : nat) (law : list (R * vec)) : Prop :=
  (forall p theta, In (p, theta) law -> (0 < p)%R /\ distribution K theta) /\ fold_right Rplus 0%R (map fst law) = 1%R.
(** Topics over words that give every word a probability. *)
Definition topics (K T : nat) (vocab : mat) : Prop := forall k, k < K -> (forall t, t < T -> (0 < vocab k t)%R) /\ vsum T (vocab k) = 1%R.
(** A corpus of documents that are not empty. *)
Definition corpus (D T : nat) (W : mat) (n : vec) : Prop :=
  forall d, d < D -> (forall t, t < T -> (0 <= W d t)%R) /\ n d = vsum T (W d) /\ (1 <= n d)%R.

Lemma quadratic_grows a b c : (0 < a)%R -> exists x, (0 <= x)%R /\ (0 < a * x ^ 2 + b * x + c)%R.
Proof.
  intros A. set (x := ((Rabs b + Rabs c + 1) / a + 1)%R). pose proof (Rabs_pos b). pose proof (Rabs_pos c).
  assert (Q : (0 <= (Rabs b + Rabs c + 1) / a)%R) by (apply Rmult_le_pos; [lra|left; apply Rinv_0_lt_compat, A]).
  exists x. split; [unfold x; lra|].
  assert (AX : (a * x = Rabs b + Rabs c + 1 + a)%R) by (unfold x; field; lra).
  assert (X1 : (1 <= x)%R) by (unfold x; lra).
  pose proof (Rle_abs (- b)) as B. rewrite Rabs_Ropp in B. pose proof (Rle_abs (- c)) as C. rewrite Rabs_Ropp in C.
  replace (a * x ^ 2 + b * x + c)%R with (x * (a * x + b) + c)%R by ring. rewrite AX.
  assert ((Rabs c + 1 <= x * (Rabs b + Rabs c + 1 + a + b))%R) by nra. lra.
Qed.
Lemma fold_max_in l : forall x, In (fold_left Rmax l x) (x :: l).
Proof.
  induction l as [|y l IH]; intros x; [left; reflexivity|]. cbn [fold_left]. destruct (IH (Rmax x y)) as [E|I].
  - rewrite <- E. unfold Rmax. destruct (Rle_dec x y); cbn; auto.
  - right. right. exact I.
Qed.
Lemma vmax_in K v : 0 < K -> exists k, k < K /\ v k = vmax K v.
Proof.
  intros H. unfold vmax. destruct (map v (seq 0 K)) as [|x l] eqn:E; [destruct K; [lia|discriminate E]|].
  pose proof (fold_max_in l x) as I. rewrite <- E in I. apply in_map_iff in I as (k & Q & J). apply in_seq in J. exists k. split; [lia|exact Q].
Qed.
Lemma exp_sum K m d : 0 < K -> (1 <= vsum K (exp_means K m d))%R.
Proof.
  intros H. destruct (vmax_in K (m d) H) as (k & L & E). apply Rle_trans with (exp_means K m d k).
  - unfold exp_means. rewrite E. replace (vmax K (m d) - vmax K (m d))%R with 0%R by ring. rewrite exp_0. lra.
  - apply vsum_in_le; [|exact L]. intros j _. left. apply exp_pos.
Qed.
Lemma ln_ge0 x : (1 <= x)%R -> (0 <= ln x)%R.
Proof. intros [H|<-]; [|rewrite ln_1; lra]. rewrite <- ln_1. left. apply ln_increasing; lra. Qed.
Lemma safe_ln_floor tiny x : (0 < tiny)%R -> (ln tiny <= safe_ln tiny x)%R.
Proof.
  intros P. unfold safe_ln, rleb. destruct (Rle_dec tiny x) as [[L|E]|]; [left; apply ln_increasing; lra|subst; lra|lra].
Qed.
Lemma weights_le K D T W n vocab m d k : corpus D T W n -> topics K T vocab -> d < D -> k < K ->
  (0 <= token_weights K T W (exp_means K m) vocab d k <= n d)%R.
Proof.
  intros CO TO HD HK. destruct (CO d HD) as (WP & N & _). unfold token_weights, quotient. rewrite <- vsum_scale.
  assert (S : forall t, t < T -> (0 <= exp_means K m d k * (W d t / vsum K (fun j => exp_means K m d j * vocab j t) * vocab k t) <= W d t)%R).
  { intros t HT. assert (E : forall j, j < K -> (0 < exp_means K m d j * vocab j t)%R) by (intros j HJ; apply Rmult_lt_0_compat; [apply exp_pos|apply (TO j HJ), HT]).
    assert (P : (0 < vsum K (fun j => exp_means K m d j * vocab j t))%R) by (apply vsum_pos; [lia|exact E]).
    pose proof (vsum_in_le K (fun j => exp_means K m d j * vocab j t)%R k (fun j H => Rlt_le _ _ (E j H)) HK) as L. cbv beta in L. pose proof (E k HK) as Ek. pose proof (WP t HT) as Wt.
    set (s := vsum K (fun j => exp_means K m d j * vocab j t)%R) in *.
    replace (exp_means K m d k * (W d t / s * vocab k t))%R with (W d t * ((exp_means K m d k * vocab k t) / s))%R by (field; lra).
    assert (Q : (0 <= (exp_means K m d k * vocab k t) / s <= 1)%R).
    { split; [apply Rmult_le_pos; [lra|left; apply Rinv_0_lt_compat, P]|]. apply (Rmult_le_reg_r s); [exact P|]. unfold Rdiv. rewrite Rmult_assoc, Rinv_l by lra. lra. }
    nra. }
  split; [apply vsum_nonneg; intros t HT; apply S, HT|]. rewrite N. apply vsum_le. intros t HT. apply S, HT.
Qed.

(** All documents have the topic 0, with weight [c]. *)
Definition spike (c : R) : mat := fun _ k => if k =? 0 then c else 0%R.
Lemma square_spike K (S : mat) (mu : vec) : 0 < K -> exists b q, forall c', (square K S (fun k => spike c' 0%nat k - mu k) = S 0%nat 0%nat * c' ^ 2 + b * c' + q)%R.
Proof.
  intros H. exists (- vsum K (fun k => S 0%nat k * mu k) - vsum K (fun j => mu j * S j 0%nat))%R, (square K S mu). intros c'. unfold square.
  assert (I : forall k, vsum K (fun j => (spike c' 0%nat j - mu j) * S j k)%R = (c' * S 0%nat k - vsum K (fun j => mu j * S j k))%R).
  { intros k. rewrite (vsum_ext K _ (fun j => spike c' 0%nat j * S j k - mu j * S j k)%R) by (intros; ring). rewrite vsum_minus. f_equal.
    rewrite (vsum_only K 0 _ H); [unfold spike; cbn; ring|]. intros j _ NJ. unfold spike. destruct (Nat.eqb_spec j 0); [contradiction|ring]. }
  rewrite (vsum_ext K _ (fun k => (c' * S 0%nat k - vsum K (fun j => mu j * S j k)) * spike c' 0%nat k - (c' * (S 0%nat k * mu k) - vsum K (fun j => mu j * S j k) * mu k))%R).
  - rewrite vsum_minus, vsum_minus, vsum_scale. rewrite (vsum_only K 0 _ H); [unfold spike; cbn [Nat.eqb]; ring|].
    intros j _ NJ. unfold spike. destruct (Nat.eqb_spec j 0); [contradiction|ring].
  - intros k _. rewrite I. ring.
Qed.
Lemma spike_row c d : spike c d = spike c 0. Proof. reflexivity. Qed.

Section growth.
  Context (K D T : nat) (W : mat) (n : vec) (tiny : R) (vocab : mat).
  Hypothesis HK : 0 < K.
  Hypothesis Htiny : (0 < tiny)%R.
  Hypothesis CO : corpus D T W n.
  Hypothesis TO : topics K T vocab.
  Context (A : mat).
  Hypothesis HA : forall k, k < K -> (0 <= A k k <= 1)%R.
  Notation A00 := (A 0%nat 0%nat).

  Lemma word_part_grows : exists q, forall c, (0 <= c)%R ->
    (vsum D (fun d => 2 * n d * A00) * c ^ 2 - 2 * INR D * c + q <= word_part K D T W n tiny A vocab (spike c))%R.
  Proof.
    exists (vsum D (fun d => n d * ln tiny) - 5 / 10 * vsum D (fun d => vsum K (fun k => n d * n d * 1)))%R. intros c C0.
    unfold word_part. cbv zeta. set (V := token_weights K T W (exp_means K (spike c)) vocab).
    assert (H1 : (0 <= vsum D (fun d => n d * ln (vsum K (exp_means K (spike c) d))))%R).
    { apply vsum_nonneg. intros d HD. destruct (CO d HD) as (_ & _ & N1). apply Rmult_le_pos; [lra|]. apply ln_ge0, exp_sum, HK. }
    assert (H2 : (vsum D (fun d => n d * ln tiny) <= vsum D (fun d => vsum T (fun t => W d t * safe_ln tiny (vsum K (fun k => exp_means K (spike c) d k * vocab k t)))))%R).
    { apply vsum_le. intros d HD. destruct (CO d HD) as (WP & -> & _). rewrite <- vsum_scale_r. apply vsum_le. intros t HT.
      apply Rmult_le_compat_l; [apply WP, HT|]. apply safe_ln_floor, Htiny. }
    assert (H4 : vsum D (fun d => vsum K (fun k => 2 * n d * vsum K (fun j => spike c d j * A j k) * spike c d k))%R = (vsum D (fun d => 2 * n d * A00) * c ^ 2)%R).
    { rewrite <- vsum_scale_r. apply vsum_ext. intros d _. rewrite (vsum_only K 0 _ HK).
      - rewrite (vsum_only K 0 _ HK).
        + unfold spike. cbn [Nat.eqb]. ring.
        + intros j _ NJ. unfold spike. destruct (Nat.eqb_spec j 0); [contradiction|ring].
      - intros k _ NK. unfold spike at 2. destruct (Nat.eqb_spec k 0); [contradiction|ring]. }
    assert (H5 : (vsum D (fun d => vsum K (fun k => spike c d k * vsoftmax K (spike c d) k)) <= INR D * c)%R).
    { rewrite <- vsum_const. apply vsum_le. intros d _. rewrite (vsum_only K 0 _ HK).
      - unfold spike at 1. cbn [Nat.eqb]. assert (L : (vsoftmax K (spike c d) 0%nat <= 1)%R).
        { rewrite <- (vsoftmax_sum K (spike c d) HK). apply vsum_in_le; [|exact HK]. intros j _. left. apply vsoftmax_pos, HK. }
        nra.
      - intros k _ NK. unfold spike at 1. destruct (Nat.eqb_spec k 0); [contradiction|ring]. }
    assert (H6 : (vsum D (fun d => vsum K (fun k => n d * V d k * A k k)) <= vsum D (fun d => vsum K (fun k => n d * n d * 1)))%R).
    { apply vsum_le. intros d HD. apply vsum_le. intros k Hk. destruct (CO d HD) as (_ & _ & N1). pose proof (weights_le K D T W n vocab (spike c) d k CO TO HD Hk) as [V0 V1]. fold V in V0, V1.
      pose proof (HA k Hk) as [I0 I1]. apply Rmult_le_compat; try nra. }
    rewrite H4. lra.
  Qed.
  (** So with any prior over the means that has a precision [S], and [rest] for
      everything else, the bound is beyond all limits. *)
  Lemma bound_grows (S : mat) (mu : mat) (rest B : R) : 0 < D -> (forall d, d < D -> (S 0%nat 0%nat / 2 < 2 * n d * A00)%R) ->
    exists c, (B < rest - 5 / 10 * vsum D (fun d => square K S (fun k => spike c d k - mu d k)) + word_part K D T W n tiny A vocab (spike c))%R.
  Proof.
    intros HD HS. destruct word_part_grows as (q & G).
    assert (SQ : forall m, exists b p, forall c, vsum m (fun d => square K S (fun k => spike c d k - mu d k))%R = (INR m * S 0%nat 0%nat * c ^ 2 + b * c + p)%R).
    { induction m as [|m (b & p & IH)]; [exists 0%R, 0%R; intros c; unfold vsum; cbn; ring|].
      destruct (square_spike K S (mu m) HK) as (b' & p' & E). exists (b + b')%R, (p + p')%R. intros c. rewrite BoundProofs.vsum_S, IH. change (spike c m) with (spike c 0). rewrite E, S_INR. ring. }
    destruct (SQ D) as (b & p & E).
    assert (AP : (0 < vsum D (fun d => 2 * n d * A00) - 5 / 10 * (INR D * S 0%nat 0%nat))%R).
    { assert (X : (INR D * (S 0%nat 0%nat / 2) < vsum D (fun d => 2 * n d * A00))%R); [|lra]. rewrite <- vsum_const. apply HyperProps.vsum_lt; [exact HD|exact HS]. }
    destruct (quadratic_grows _ (- 2 * INR D - 5 / 10 * b) (rest - 5 / 10 * p + q - B) AP) as (c & C0 & P). exists c. rewrite E. specialize (G c C0). nra.
  Qed.
End growth.

Lemma prod_le1 m f : (forall i, i < m -> (0 <= f i <= 1)%R) -> (0 <= prod m f <= 1)%R.
Proof. induction m as [|m IH]; intros H; cbn [prod]; [lra|]. specialize (IH (fun i L => H i (Nat.lt_lt_succ_r _ _ L))). specialize (H m (Nat.lt_succ_diag_r m)). nra. Qed.
Lemma classic_pos m (p : vec) : (forall i, i < m -> (0 <= p i)%R) -> vsum m p = 1%R -> exists k, k < m /\ (0 < p k)%R.
Proof.
  intros P S. assert (G : (exists k, k < m /\ (0 < p k)%R) \/ (forall k, k < m -> p k = 0%R)).
  { clear S. induction m as [|m IH]; [right; intros; lia|]. destruct (IH (fun i L => P i (Nat.lt_lt_succ_r _ _ L))) as [(k & L & H)|Z]; [left; exists k; split; [lia|exact H]|].
    destruct (P m (Nat.lt_succ_diag_r m)) as [H|H]; [left; exists m; split; [lia|exact H]|]. right. intros k L. destruct (Nat.eq_dec k m) as [->|]; [symmetry; exact H|apply Z; lia]. }
  destruct G as [G|Z]; [exact G|]. exfalso. rewrite (BoundProofs.vsum_0 m p Z) in S. lra.
Qed.
Lemma word_prob_bounds K T vocab theta t : topics K T vocab -> distribution K theta -> t < T -> (0 < word_prob K vocab theta t <= 1)%R.
Proof.
  intros TO (P & S) HT. unfold word_prob.
  assert (U : forall k, k < K -> (0 < vocab k t <= 1)%R).
  { intros k HK. destruct (TO k HK) as (VP & VS). split; [apply VP, HT|]. rewrite <- VS. apply vsum_in_le; [|exact HT]. intros j HJ. left. apply VP, HJ. }
  split.
  - destruct (classic_pos K theta P S) as (k & HK & PK). apply (vsum_pos_one K _ k HK).
    + intros j HJ. apply Rmult_le_pos; [apply P, HJ|]. left. apply U, HJ.
    + apply Rmult_lt_0_compat; [exact PK|apply U, HK].
  - rewrite <- S. apply vsum_le. intros k HK. pose proof (P k HK). pose proof (U k HK). nra.
Qed.

Lemma doc_prob_bounds K T vocab w theta : topics K T vocab -> distribution K theta -> (forall t, t < T -> (0 <= w t)%R) -> (0 <= doc_prob K T vocab w theta <= 1)%R.
Proof.
  intros TO DT WP. apply prod_le1. intros t HT. destruct (word_prob_bounds K T vocab theta t TO DT HT) as (P0 & P1). unfold Rpower. split; [left; apply exp_pos|].
  rewrite <- exp_0. assert (L : (ln (word_prob K vocab theta t) <= 0)%R) by (rewrite <- ln_1; destruct P1 as [P1|E]; [left; apply ln_increasing; assumption|rewrite E; lra]).
  assert (X : (w t * ln (word_prob K vocab theta t) <= 0)%R) by (pose proof (WP t HT); nra). destruct X as [X|X]; [left; apply exp_increasing, X|rewrite X; lra].
Qed.
(** The probability of words is at most one. *)
Lemma corpus_prob_le1 K D T vocab W n law : topics K T vocab -> corpus D T W n -> is_law K law -> (ln (corpus_prob K D T vocab W law) <= 0)%R.
Proof.
  intros TO CO (LP & LS). assert (P : (0 <= corpus_prob K D T vocab W law <= 1)%R).
  { apply prod_le1. intros d HD. destruct (CO d HD) as (WP & _ & _).
    assert (G : (0 <= fold_right Rplus 0 (map (fun '(p, theta) => p * doc_prob K T vocab (W d) theta) law) <= fold_right Rplus 0 (map fst law))%R); [|lra].
    clear LS. induction law as [|(p, theta) law IH]; cbn [map fold_right fst]; [lra|]. destruct (LP p theta (or_introl eq_refl)) as (P0 & DT).
    pose proof (doc_prob_bounds K T vocab (W d) theta TO DT WP) as DP. specialize (IH (fun p' t' I => LP p' t' (or_intror I))). nra. }
  destruct P as ([P0|P0] & [P1|P1]).
  - left. rewrite <- ln_1. apply ln_increasing; assumption.
  - rewrite P1, ln_1. lra.
  - rewrite <- P0. unfold ln. destruct (Rlt_dec 0 0) as [H|H]; [exfalso; exact (Rlt_irrefl 0 H)|apply Rle_refl].
  - lra.
Qed.

Lemma inv_le K m : m <= K -> 0 < m -> (0 < / INR K <= / INR m)%R.
Proof.
  intros H P. assert (0 < INR m)%R by (apply lt_0_INR, P). assert (INR m <= INR K)%R by (apply le_INR, H).
  split; [apply Rinv_0_lt_compat; lra|apply Rinv_le_contravar; lra].
Qed.
Lemma bohning_diag K k : 2 <= K -> (1 / 3 <= bohning K k k <= 1)%R.
Proof.
  intros H. unfold bohning, eye. rewrite Nat.eqb_refl. rewrite <- S_INR. pose proof (inv_le (S K) 3 ltac:(lia) ltac:(lia)) as I. replace (INR 3) with 3%R in I by (cbn; ring). lra.
Qed.
Lemma bohning_diag1 K k : 0 < K -> (0 <= bohning K k k <= 1)%R.
Proof.
  intros H. unfold bohning, eye. rewrite Nat.eqb_refl. rewrite <- S_INR. pose proof (inv_le (S K) 2 ltac:(lia) ltac:(lia)) as I. replace (INR 2) with 2%R in I by (cbn; ring). lra.
Qed.
Lemma mtm_diag K k : 2 <= K -> (1 / 3 <= MtmModel.mtm_A K k k <= 1)%R.
Proof.
  intros H. unfold MtmModel.mtm_A, eye. rewrite Nat.eqb_refl. pose proof (inv_le K 2 ltac:(lia) ltac:(lia)) as I. replace (INR 2) with 2%R in I by (cbn; ring). lra.
Qed.
Lemma topic_bound_grows K D T W n tiny A vocab mu varcs B : 2 <= K -> 0 < D -> (0 < tiny)%R -> corpus D T W n -> topics K T vocab ->
  (forall k, k < K -> (1 / 3 <= A k k <= 1)%R) -> exists means, (B < topic_bound K D T W n tiny A eye 1 mu vocab means varcs)%R.
Proof.
  intros HK HD HT CO TO HA. unfold topic_bound.
  destruct (bound_grows K D T W n tiny vocab ltac:(lia) HT CO TO A ltac:(intros k L; pose proof (HA k L); lra) eye (fun _ => mu)
    (- (INR D * INR K / 2 * ln_2_pi) - INR D / 2 * 1 - 5 / 10 * vsum D (fun d => vsum K (fun k => varcs d k * eye k k)))%R B HD) as (c & G).
  - intros d Hd. destruct (CO d Hd) as (_ & _ & N1). unfold eye. cbn [Nat.eqb]. pose proof (HA 0%nat ltac:(lia)). nra.
  - exists (spike c). lra.
Qed.

(** For every corpus of documents that are not empty, with the covariance that
    training sets (ctm_bohning.py lines 244-245) or that a new model has (mtm2.py line
    134), there are states for which the figure reported is larger than any number: *)
Theorem C225_unbounded_refuted : forall K D T W n tiny vocab mu varcs B, 2 <= K -> 0 < D -> (0 < tiny)%R -> corpus D T W n -> topics K T vocab ->
  (exists means, (B < ctm_bound K D T W n tiny eye 1 mu vocab means varcs)%R) /\
  exists means, (B < mtm2_bound K D T W n tiny eye 1 mu vocab means varcs)%R.
Proof.
  intros K D T W n tiny vocab mu varcs B HK HD HT CO TO. split; apply topic_bound_grows; try assumption; intros k _; [apply bohning_diag|apply mtm_diag]; exact HK.
Qed.
(** so that it is no lower bound of the logarithm of the probability of the words,
    whatever the law of the topics. *)
Theorem C225_not_a_bound_refuted : forall K D T W n tiny vocab mu varcs, 2 <= K -> 0 < D -> (0 < tiny)%R -> corpus D T W n -> topics K T vocab ->
  (exists means, forall law, is_law K law -> (ln (corpus_prob K D T vocab W law) < ctm_bound K D T W n tiny eye 1 mu vocab means varcs)%R) /\
  exists means, forall law, is_law K law -> (ln (corpus_prob K D T vocab W law) < mtm2_bound K D T W n tiny eye 1 mu vocab means varcs)%R.
Proof.
  intros K D T W n tiny vocab mu varcs HK HD HT CO TO. destruct (C225_unbounded_refuted K D T W n tiny vocab mu varcs 0 HK HD HT CO TO) as ((m1 & G1) & m2 & G2).
  split; [exists m1|exists m2]; intros law L; pose proof (corpus_prob_le1 K D T vocab W n law TO CO L); lra.
Qed.
(** The same for side topics, when the documents are long enough for their precision. *)
Theorem C225_side_topics_refuted : forall K D T W n tiny P F X XTX A Y V R_A R_Y sigT isigT vocab fv lfv det_A det_Y varcs,
  0 < K -> 0 < D -> (0 < tiny)%R -> corpus D T W n -> topics K T vocab ->
  (forall d, d < D -> (isigT 0%nat 0%nat / 2 < n d * (1 - 1 / (INR K + 1)))%R) ->
  exists means, forall law, is_law K law ->
    (ln (corpus_prob K D T vocab W law) < stm_bound K D T W n tiny P F X XTX A Y V R_A R_Y sigT isigT vocab fv lfv det_A det_Y means varcs)%R.
Proof.
  intros K D T W n tiny P F X XTX A Y V R_A R_Y sigT isigT vocab fv lfv det_A det_Y varcs HK HD HT CO TO HS.
  set (rest := (stm_bound K D T W n tiny P F X XTX A Y V R_A R_Y sigT isigT vocab fv lfv det_A det_Y (fun _ _ => 0) varcs
    + 5 / 10 * vsum D (fun d => square K isigT (fun k => 0 - vsum F (fun f => X d f * A k f)))
    - word_part K D T W n tiny (bohning K) vocab (fun _ _ => 0))%R).
  destruct (bound_grows K D T W n tiny vocab HK HT CO TO (bohning K) ltac:(intros; apply bohning_diag1, HK) isigT (fun d k => vsum F (fun f => X d f * A k f)%R) rest 0 HD) as (c & G).
  - intros d Hd. specialize (HS d Hd). unfold bohning, eye. cbn [Nat.eqb]. lra.
  - exists (spike c). intros law L. pose proof (corpus_prob_le1 K D T vocab W n law TO CO L) as P0.
    assert (E : stm_bound K D T W n tiny P F X XTX A Y V R_A R_Y sigT isigT vocab fv lfv det_A det_Y (spike c) varcs =
                (rest - 5 / 10 * vsum D (fun d => square K isigT (fun k => spike c d k - vsum F (fun f => X d f * A k f))) + word_part K D T W n tiny (bohning K) vocab (spike c))%R).
    { unfold rest, stm_bound. cbv zeta. ring. }
    rewrite E. lra.
Qed.
Example C225_case : exists W n vocab law, corpus 2 2 W n /\ topics 2 2 vocab /\ is_law 2 law /\ W 0%nat 1%nat = 3%R.
Proof.
  exists (fun d t => INR (1 + d + 2 * t)), (fun d => vsum 2 (fun t => INR (1 + d + 2 * t))), (fun k t => if k =? t then (3 / 4)%R else (1 / 4)%R), [((1 / 3)%R, fun _ => (1 / 2)%R); ((2 / 3)%R, fun k => if k =? 0 then 1%R else 0%R)].
  split; [|split; [|split]].
  - intros d Hd. split; [intros; apply pos_INR|]. split; [reflexivity|]. unfold vsum, rsum. cbn [seq map fold_right]. rewrite !plus_INR. cbn [INR]. pose proof (pos_INR d). cbn. lra.
  - intros k Hk. split.
    + intros t Ht. destruct (k =? t); lra.
    + unfold vsum, rsum. cbn [seq map fold_right]. destruct k as [|[|k]]; cbn; try lra. lia.
  - split.
    + intros p theta [E|[E|[]]]; injection E as <- <-; (split; [lra|split; [intros i _; try (destruct (i =? 0)); lra|unfold vsum, rsum; cbn; lra]]).
    + cbn. lra.
  - cbn. lra.
Qed.

Print Assumptions C225_unbounded_refuted.
Print Assumptions C225_not_a_bound_refuted.
Print Assumptions C225_side_topics_refuted.
