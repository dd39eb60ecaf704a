(** * C153-C162: the matrix-variate topic models. *)
From Coq Require Import List Reals ZArith Arith Bool Lra Lia FunctionalExtensionality.
From Verif Require Import Base RealModel RealProofs VbModel VbProofs LinkModel LinkProps CtmModel CtmProofs CtmProps StmModel StmProps MtmModel MtmProofs.
Import ListNotations.
Open Scope nat_scope.

(** ** Specification *)
(** The logarithm of the posterior density of a document's out-topics [m], up to a
    constant: its words come from [vocab], its links from the documents' distributions
    [docs]; the prior has mean [mu] and precision [P] times [pa], and the in-topics [inm]
    are normal about [m] with precision [P] times [pb]. *)
Definition out_posterior (K T D : nat) (vocab docs : mat) (w l mu inm : vec) (P : mat) (pa pb : R) (m : vec) : R :=
  (log_like K T vocab w m + log_like K D docs l m
   - pa * quad K P (fun k => m k - mu k) (fun k => m k - mu k) / 2
   - pb * quad K P (fun k => m k - inm k) (fun k => m k - inm k) / 2)%R.
(** The distribution of topic [k] over the documents that links point to. *)
Definition link_dist (D : nat) (inm : mat) : mat := fun k => softmax D (fun d => inm d k).
(** The probability that a link from [d] to [l] has topic [k]. *)
Definition link_share (K D : nat) (out inm : mat) (d l k : nat) : R :=
  (softmax K (out d) k * link_dist D inm k l / vsum K (fun j => softmax K (out d) j * link_dist D inm j l))%R.
(** The logarithm of the posterior density of all in-topics. *)
Definition in_posterior (K D : nat) (L out P : mat) (idc : vec) (inm : mat) : R :=
  (vsum D (fun d => vsum D (fun l => L d l * ln (vsum K (fun k => softmax K (out d) k * link_dist D inm k l))))
   - vsum D (fun d => quad K P (fun k => inm d k - out d k) (fun k => inm d k - out d k) / (2 * idc d)))%R.

(** ** C153: mtm_vb cannot be trained *)
Theorem C153_mtm_training_never_finishes K D T W fast iterations means vocab : 1 < K -> 0 < D -> 0 < iterations ->
  exists e, snd (mtm2_train K D T W fast iterations means vocab) = Raise e /\ (1 < D -> e = AssertionError).
Proof.
  intros HK HD Hi. unfold mtm2_train, transposed_is_fortran. destruct iterations as [|i]; [lia|].
  destruct (Nat.eq_dec D 1) as [->|N].
  - destruct fast; cbn; eexists; (split; [reflexivity|lia]).
  - destruct (Nat.ltb_spec D 2); [lia|]. rewrite andb_false_r. destruct (Nat.ltb_spec 1 D); [|lia]. destruct (Nat.ltb_spec 1 K); [|lia].
    cbn. eexists. split; [reflexivity|reflexivity].
Qed.
(** What it leaves in the model that was passed in: the vocabulary of one update. *)
Theorem C153_vocabulary_left_behind K D T W fast iterations means vocab : 1 < K -> 1 < D -> 0 < iterations -> 0 < T ->
  (forall d t, d < D -> t < T -> (0 <= W d t)%R) -> (forall k, k < K -> positive_dist T (vocab k)) ->
  let vocab' := fst (mtm2_train K D T W fast iterations means vocab) in
  (forall k, k < K -> positive_dist T (vocab' k)) /\
  (vsum D (fun d => log_like K T vocab (W d) (means d)) + 1 / 10 * vsum K (fun k => vsum T (fun t => ln (vocab k t)))
   <= vsum D (fun d => log_like K T vocab' (W d) (means d)) + 1 / 10 * vsum K (fun k => vsum T (fun t => ln (vocab' k t))))%R.
Proof.
  intros HK HD Hi HT HW HV.
  assert (E : fst (mtm2_train K D T W fast iterations means vocab) = vocab_update K D T W (1 / 10) (exp_means K means) vocab).
  { unfold mtm2_train, transposed_is_fortran. destruct iterations as [|i]; [lia|].
    destruct (Nat.ltb_spec D 2); [lia|]. rewrite andb_false_r. destruct (Nat.ltb_spec 1 D); [|lia]. destruct (Nat.ltb_spec 1 K); [|lia]. reflexivity. }
  cbv zeta. rewrite E. assert (Hb : (0 < 1 / 10)%R) by lra. pose proof (positive_covers K T vocab ltac:(lia) HV) as Hc. assert (HK0 : 0 < K) by lia. split.
  - intros k Hk. assert (He : forall d k, d < D -> k < K -> (0 < exp_means K means d k)%R) by (intros; apply exp_pos).
    split; [intros; apply vocab_update_pos; assumption|apply vocab_update_sum; assumption].
  - apply (vocab_step K D T W ltac:(lia) HW means vocab (1 / 10)%R Hb HT); [intros; apply HV; assumption|intros; apply HV; assumption].
Qed.
(** Whereas no iterations at all succeed. *)
Theorem C153_trains_refuted : exists K D T W n means vocab, counts D T W n /\ (forall k, k < K -> positive_dist T (vocab k)) /\
  1 < K /\ (forall fast, snd (mtm2_train K D T W fast 0 means vocab) = Ok means) /\
  (forall fast iterations, snd (mtm2_train K D T W fast (S iterations) means vocab) = Raise AssertionError).
Proof.
  exists 2, 2, 2, two_words, four, two_means, two_topics. split; [exact two_counts|]. split; [exact two_dists|]. split; [lia|].
  split; [reflexivity|]. intros fast i.
  destruct (C153_mtm_training_never_finishes 2 2 2 two_words fast (S i) two_means two_topics ltac:(lia) ltac:(lia) ltac:(lia)) as [e [E H]].
  rewrite E, (H ltac:(lia)). reflexivity.
Qed.

Lemma sum_reads_ok f ks : (forall k, In k ks -> exists x, f k = Ok x) -> exists r, sum_reads f ks = Ok r.
Proof.
  induction ks as [|k ks IH]; intros H; cbn [sum_reads]; [eexists; reflexivity|].
  destruct (H k (or_introl eq_refl)) as [x ->]. destruct IH as [r E]; [intros j Hj; apply H; right; exact Hj|].
  cbn [bind]. rewrite E. eexists. reflexivity.
Qed.
Lemma likelihood_ok K D T W L tiny vocab out inm : 0 < K -> K <= D -> exists r, mtm_log_likelihood K D T W L tiny vocab out inm = Ok r.
Proof.
  intros HK HKD. unfold mtm_log_likelihood, link_likely.
  assert (H : exists r, sum_reads (fun d => sum_reads (link_likely1 K D L tiny out inm d) (seq 0 D)) (seq 0 D) = Ok r).
  { apply sum_reads_ok. intros d Hd. apply sum_reads_ok. intros l Hl. apply in_seq in Hl. unfold link_likely1.
    destruct (Req_EM_T (L d l) 0); [eexists; reflexivity|].
    destruct (sum_reads_ok (fun k => do x <- read_flat K D (col_softmax D inm) k l; Ok (vsoftmax K (out d) k * x)%R) (seq 0 K)) as [r ->];
      [|eexists; reflexivity].
    intros k Hk. apply in_seq in Hk. unfold read_flat. destruct (Nat.ltb_spec (k * K + l) (D * K)); [eexists; reflexivity|]. nia. }
  destruct H as [r ->]. eexists. reflexivity.
Qed.

(** ** The training of mtm2_vb *)
Section train.
  Variables K D T : nat.
  Variables W L : mat.
  Variable n : vec.
  Variable inv : mat -> mat.
  Hypothesis HK : 1 < K.
  Hypothesis HT : 0 < T.
  Hypothesis HD : 1 < D.
  Hypothesis HI : inverts K inv.
  Hypothesis HC : counts D T W n.
  Hypothesis HL : forall d l, d < D -> l < D -> (0 <= L d l)%R.

  (** States as new ones are: positive variances, and a vocabulary for all words. *)
  Definition mtm_sound (s : mtm) : Prop :=
    (forall d k, d < D -> k < K -> (0 < mt_outv s d k)%R) /\ (forall d k, d < D -> k < K -> (0 < mt_inv s d k)%R) /\
    (forall d, d < D -> (0 < mt_idc s d)%R) /\ (forall k, k < K -> positive_dist T (mt_vocab s k)).

  Lemma emit_nonneg d : d < D -> (0 <= emit D L n d)%R.
  Proof.
    intros Hd. unfold emit, out_links. destruct HC as [HW Hn]. rewrite (Hn d Hd).
    pose proof (vsum_nonneg T (W d) (fun t Ht => HW d t Hd Ht)). pose proof (vsum_nonneg D (L d) (fun l Hl => HL d l Hd Hl)). lra.
  Qed.
  Lemma e_pos (M : mat) d k : (0 < exp_means K M d k)%R.
  Proof. apply exp_pos. Qed.
  Lemma in_tops_nonneg M inm d k : d < D -> k < K -> (0 <= in_tops K D L (exp_means K M) (doc_vocab D inm) d k)%R.
  Proof.
    intros Hd Hk. unfold in_tops.
    apply (C64_tokens_conserved K D D (fun d l => L l d) (fun d => vsum D (fun l => L l d)) (exp_means K M) (doc_vocab D inm) d);
      [split; [intros; apply HL; assumption|reflexivity]|apply doc_vocab_covers; lia|exact Hd|intros; apply e_pos|exact Hk].
  Qed.
  Lemma in_counts_nonneg M inm k : k < K -> (0 <= in_counts K D L (exp_means K M) (doc_vocab D inm) k)%R.
  Proof. intros Hk. unfold in_counts. apply vsum_nonneg. intros d Hd. apply in_tops_nonneg; assumption. Qed.

  (** What an iteration leaves. *)
  Lemma iter_shape s s' : mtm_sound s -> mtm_iter K D T W L n inv s = Ok s' ->
    let P := inv (mt_cov s') in
    symm K (mt_cov s') /\ posdef K (mt_cov s') /\ symm K P /\ posdef K P /\ (forall d, d < D -> (0 < mt_idc s' d)%R) /\
    (exists pre, mt_cov s' = topic_cov D (mt_mean s') s pre) /\ mt_idc s' = in_doc_cov K s P /\
    mt_mean s' = col_mean D (mt_out s) /\ mt_odc s' = 10%R /\
    mt_vocab s' = vocab_update K D T W mtm_beta (exp_means K (mt_out s)) (mt_vocab s) /\
    mt_out s' = new_out K D L n inv P (mt_idc s') (out_rhs K D L n (token_weights K T W (exp_means K (mt_out s)) (mt_vocab s'))
      (out_tops K D L (exp_means K (mt_out s)) (doc_vocab D (mt_in s))) (mt_mean s') P (mt_idc s') (mt_out s) (mt_in s)) /\
    mt_outv s' = out_varcs K D L n out_doc_pre P (mt_idc s') /\
    (let c := in_counts K D L (exp_means K (mt_out s)) (doc_vocab D (mt_in s)) in
     mt_in s' = new_in K D inv P (mt_idc s') c (in_rhs K D P (mt_idc s') (in_tops K D L (exp_means K (mt_out s)) (doc_vocab D (mt_in s))) c
       (doc_vocab D (mt_in s)) (mt_out s) (mt_in s)) /\
     mt_inv s' = in_varcs D P (mt_idc s') c).
  Proof.
    clear HL HT. intros [HVo [HVi [Hidc HV]]] E. unfold mtm_iter in E.
    destruct (cov_loop K D inv (col_mean D (mt_out s)) s 5 (mt_cov s) (mt_idc s)) as [cov idc] eqn:EC.
    destruct (Nat.eqb_spec D 1); [lia|]. inversion E; subst; clear E.
    pose proof (cov_loop_sound K D inv ltac:(lia) HI s (fun d k Hd Hk => Rlt_le _ _ (HVo d k Hd Hk)) (fun d k Hd Hk => Rlt_le _ _ (HVi d k Hd Hk))
      (col_mean D (mt_out s)) 5 (mt_cov s) (mt_idc s) Hidc ltac:(lia)) as CS. cbv zeta in CS. rewrite EC in CS. cbn [fst snd] in CS.
    destruct CS as [C1 [C2 [C3 C4]]]. destruct (HI cov C1 C2) as [I1 I2].
    assert (C5 : exists pre, cov = topic_cov D (col_mean D (mt_out s)) s pre) by (cbn [cov_loop] in EC; inversion EC; eexists; reflexivity).
    cbv zeta. cbn [mt_cov mt_idc mt_mean mt_odc mt_vocab mt_out mt_outv mt_in mt_inv].
    repeat split; try reflexivity; try assumption.
    - exact (inverse_symm K _ _ C1 I1 I2).
    - exact (inverse_posdef K _ _ C2 I1 I2).
  Qed.
  Lemma iter_exists s : exists s', mtm_iter K D T W L n inv s = Ok s'.
  Proof.
    clear HL HT HK. unfold mtm_iter. destruct (cov_loop K D inv (col_mean D (mt_out s)) s 5 (mt_cov s) (mt_idc s)) as [cov idc].
    destruct (Nat.eqb_spec D 1); [lia|]. eexists. reflexivity.
  Qed.
  Lemma scaled_posdef P c : (0 < c)%R -> posdef K P -> posdef K (fun i j => c * P i j)%R.
  Proof. intros Hc HP x Hx. rewrite quad_scale. apply Rmult_lt_0_compat; [exact Hc|apply HP; exact Hx]. Qed.
  Lemma out_lhs_good P idc d : symm K P -> posdef K P -> (0 < idc d)%R -> d < D ->
    symm K (out_lhs K D L n P idc d) /\ posdef K (out_lhs K D L n P idc d).
  Proof.
    intros HS HP Hi Hd. pose proof (Rinv_0_lt_compat _ Hi). split.
    - intros i j Hi' Hj. unfold out_lhs. rewrite (HS i j Hi' Hj), (mtm_A_symm K i j Hi' Hj). reflexivity.
    - unfold out_lhs. apply (posdef_add K (fun i j => (out_doc_pre + / idc d) * P i j)%R (mtm_A K));
        [apply scaled_posdef; [unfold out_doc_pre; lra|exact HP]|apply mtm_A_psd; lia|apply emit_nonneg; exact Hd].
  Qed.
  Lemma in_lhs_good P idc c d : symm K P -> posdef K P -> (0 < idc d)%R -> (forall k, k < K -> (0 <= c k)%R) ->
    symm K (in_lhs D P idc c d) /\ posdef K (in_lhs D P idc c d).
  Proof.
    intros HS HP Hi Hc. pose proof (Rinv_0_lt_compat _ Hi). split.
    - intros i j Hi' Hj. unfold in_lhs. rewrite (HS i j Hi' Hj), (Nat.eqb_sym j i). destruct (Nat.eqb_spec i j) as [->|]; reflexivity.
    - unfold in_lhs. apply (posdef_add K (fun i j => / idc d * P i j)%R (fun i j => if i =? j then c i else 0)%R).
      + apply scaled_posdef; assumption.
      + intros x. rewrite quad_diag. apply vsum_nonneg. intros i Hi'. apply Rmult_le_pos; [apply Hc; exact Hi'|apply Rle_0_sqr].
      + assert (1 < INR D)%R by (apply (lt_INR 1); exact HD). apply Rmult_le_pos; [lra|]. left. apply Rinv_0_lt_compat. lra.
  Qed.

  (** ** C154 *)
  Theorem C154_topics_improve s s' : mtm_sound s -> mtm_iter K D T W L n inv s = Ok s' ->
    (forall k, k < K -> positive_dist T (mt_vocab s' k)) /\
    (vsum D (fun d => log_like K T (mt_vocab s) (W d) (mt_out s d)) + 1 / 100 * vsum K (fun k => vsum T (fun t => ln (mt_vocab s k t)))
     <= vsum D (fun d => log_like K T (mt_vocab s') (W d) (mt_out s d)) + 1 / 100 * vsum K (fun k => vsum T (fun t => ln (mt_vocab s' k t))))%R.
  Proof.
    intros HS E. destruct (iter_shape s s' HS E) as (_ & _ & _ & _ & _ & _ & _ & _ & _ & EV & _). destruct HS as [_ [_ [_ HV]]].
    rewrite EV. assert (Hb : (0 < mtm_beta)%R) by (unfold mtm_beta; lra). pose proof (positive_covers K T _ ltac:(lia) HV) as Hc.
    destruct HC as [HW _]. assert (HK0 : 0 < K) by lia. split.
    - intros k Hk. assert (He : forall d k, d < D -> k < K -> (0 < exp_means K (mt_out s) d k)%R) by (intros; apply exp_pos).
      split; [intros; apply vocab_update_pos; assumption|apply vocab_update_sum; assumption].
    - apply (vocab_step K D T W ltac:(lia) HW (mt_out s) (mt_vocab s) mtm_beta Hb HT); intros; apply HV; assumption.
  Qed.

  (** ** C155 *)
  (** The matrices that an iteration inverts are symmetric and positive definite. *)
  Theorem C155_iteration_sound s : mtm_sound s -> exists s', mtm_iter K D T W L n inv s = Ok s' /\ mtm_sound s' /\
    symm K (mt_cov s') /\ posdef K (mt_cov s') /\
    forall d, d < D -> let P := inv (mt_cov s') in let M := out_lhs K D L n P (mt_idc s') d in
      let N := in_lhs D P (mt_idc s') (in_counts K D L (exp_means K (mt_out s)) (doc_vocab D (mt_in s))) d in
      symm K M /\ posdef K M /\ symm K N /\ posdef K N.
  Proof.
    intros HS. destruct (iter_exists s) as [s' E]. exists s'. split; [exact E|].
    destruct (C154_topics_improve s s' HS E) as [HV _].
    destruct (iter_shape s s' HS E) as (C1 & C2 & P1 & P2 & I1 & _ & _ & _ & _ & _ & _ & OV & _ & IV).
    assert (HcN := fun k => in_counts_nonneg (mt_out s) (mt_in s) k).
    assert (1 <= INR K)%R by (apply (le_INR 1); lia). assert (1 <= INR D)%R by (apply (le_INR 1); lia).
    split; [|split; [exact C1|split; [exact C2|]]].
    - split; [|split; [|split; [exact I1|exact HV]]].
      + intros d k Hd Hk. rewrite OV. unfold out_varcs. apply Rinv_0_lt_compat.
        pose proof (diag_of_posdef K (inv (mt_cov s')) k P2 Hk) as Hp. pose proof (emit_nonneg d Hd) as He.
        pose proof (Rinv_0_lt_compat _ (I1 d Hd)) as Hi.
        assert (0 < (out_doc_pre + / mt_idc s' d) * inv (mt_cov s') k k)%R by (apply Rmult_lt_0_compat; [unfold out_doc_pre; lra|exact Hp]).
        assert (0 <= emit D L n d * (INR K - 1) / (2 * INR K))%R; [|lra].
        apply Rmult_le_pos; [apply Rmult_le_pos; lra|left; apply Rinv_0_lt_compat; lra].
      + intros d k Hd Hk. rewrite IV. unfold in_varcs. apply Rinv_0_lt_compat.
        pose proof (diag_of_posdef K (inv (mt_cov s')) k P2 Hk) as Hp. specialize (HcN k Hk).
        pose proof (Rinv_0_lt_compat _ (I1 d Hd)) as Hi.
        assert (0 < / mt_idc s' d * inv (mt_cov s') k k)%R by (apply Rmult_lt_0_compat; assumption).
        assert (0 <= in_counts K D L (exp_means K (mt_out s)) (doc_vocab D (mt_in s)) k * (INR D - 1) / (2 * INR D))%R; [|lra].
        apply Rmult_le_pos; [apply Rmult_le_pos; lra|left; apply Rinv_0_lt_compat; lra].
    - intros d Hd. cbv zeta. destruct (out_lhs_good _ (mt_idc s') d P1 P2 (I1 d Hd) Hd) as [A1 A2].
      destruct (in_lhs_good _ (mt_idc s') _ d P1 P2 (I1 d Hd) HcN) as [B1 B2]. repeat split; assumption.
  Qed.

  Lemma loop_sound tiny freq stop : (freq = 0 \/ K <= D) -> forall todo itr s, mtm_sound s -> exists s',
    mtm_loop K D T W L n inv tiny freq stop itr todo s = Ok s' /\ mtm_sound s' /\
    (0 < todo -> symm K (mt_cov s') /\ posdef K (mt_cov s')).
  Proof.
    intros Hf. induction todo as [|todo IH]; intros itr s HS; cbn [mtm_loop]; [exists s; split; [reflexivity|split; [exact HS|lia]]|].
    destruct (C155_iteration_sound s HS) as [s1 [E1 [S1 [C1 [C2 _]]]]]. rewrite E1. cbn [bind].
    assert (R : exists s', mtm_loop K D T W L n inv tiny freq stop (S itr) todo s1 = Ok s' /\ mtm_sound s' /\
      (0 < S todo -> symm K (mt_cov s') /\ posdef K (mt_cov s'))).
    { destruct (IH (S itr) s1 S1) as [s' [E [S' P']]]. exists s'. split; [exact E|]. split; [exact S'|]. intros _.
      destruct todo as [|t]; [cbn [mtm_loop] in E; inversion E; subst; split; assumption|apply P'; lia]. }
    destruct (logs freq itr) eqn:Elog; [|exact R].
    assert (HKD : K <= D). { destruct Hf as [->|H]; [discriminate Elog|exact H]. }
    destruct (likelihood_ok K D T W L tiny (mt_vocab s1) (mt_out s1) (mt_in s1) ltac:(lia) HKD) as [r ->]. cbn [bind].
    destruct (stop itr s1); [|exact R]. exists s1. split; [reflexivity|]. split; [exact S1|]. intros _. split; assumption.
  Qed.
  Lemma start_sound s : (forall d k, d < D -> k < K -> (0 < mt_outv s d k)%R) -> (forall d k, d < D -> k < K -> (0 < mt_inv s d k)%R) ->
    (forall k, k < K -> positive_dist T (mt_vocab s k)) -> mtm_sound (mtm_start s).
  Proof. intros H1 H2 H3. split; [exact H1|]. split; [exact H2|]. split; [intros; cbn [mt_idc mtm_start]; lra|exact H3]. Qed.

  Theorem C155_training_sound tiny freq stop iterations s : freq = 0 \/ K <= D -> 0 < iterations ->
    (forall d k, d < D -> k < K -> (0 < mt_outv s d k)%R) -> (forall d k, d < D -> k < K -> (0 < mt_inv s d k)%R) ->
    (forall k, k < K -> positive_dist T (mt_vocab s k)) ->
    exists s', mtm_train K D T W L n inv tiny freq stop iterations s = Ok s' /\
      symm K (mt_cov s') /\ posdef K (mt_cov s') /\
      (forall d k, d < D -> k < K -> (0 < mt_outv s' d k)%R) /\ (forall d k, d < D -> k < K -> (0 < mt_inv s' d k)%R) /\
      (forall d, d < D -> (0 < mt_idc s' d)%R).
  Proof.
    intros Hf Hi H1 H2 H3. destruct (loop_sound tiny freq stop Hf iterations 0 (mtm_start s) (start_sound s H1 H2 H3)) as [s' [E [[A1 [A2 [A3 A4]]] C]]].
    destruct (C Hi) as [C1 C2]. exists s'. split; [exact E|]. repeat split; assumption.
  Qed.
  Theorem C154_training_topics tiny freq stop iterations s s' :
    (forall d k, d < D -> k < K -> (0 < mt_outv s d k)%R) -> (forall d k, d < D -> k < K -> (0 < mt_inv s d k)%R) ->
    (forall k, k < K -> positive_dist T (mt_vocab s k)) -> mtm_train K D T W L n inv tiny freq stop iterations s = Ok s' ->
    forall k, k < K -> positive_dist T (mt_vocab s' k).
  Proof.
    intros H1 H2 H3. pose proof (start_sound s H1 H2 H3) as HS. unfold mtm_train. clear H1 H2 H3. revert HS. generalize 0 as itr. generalize (mtm_start s) as s0.
    clear s. induction iterations as [|todo IH]; intros s itr HS E; cbn [mtm_loop] in E; [inversion E; subst; apply HS|].
    destruct (C155_iteration_sound s HS) as [s1 [E1 [S1 _]]]. rewrite E1 in E. cbn [bind] in E.
    destruct (logs freq itr); [|apply (IH s1 (S itr) S1 E)].
    destruct (mtm_log_likelihood K D T W L tiny (mt_vocab s1) (mt_out s1) (mt_in s1)); cbn [bind] in E; [|discriminate].
    destruct (stop itr s1); [inversion E; subst; apply S1|apply (IH s1 (S itr) S1 E)].
  Qed.

  (** ** C156: the links' shares of the topics *)
  Lemma links_counts : counts D D L (out_links D L).
  Proof. split; [exact HL|reflexivity]. Qed.
  Lemma out_tops_is out inm d k : d < D -> out_tops K D L (exp_means K out) (doc_vocab D inm) d k = vsum D (fun l => L d l * link_share K D out inm d l k)%R.
  Proof.
    clear HL HT. intros Hd. unfold out_tops. rewrite (token_weights_expected K D L out (doc_vocab D inm) d k (doc_vocab_covers K D inm ltac:(lia) ltac:(lia))).
    unfold expected. apply vsum_ext. intros l Hl. f_equal. unfold link_share, link_dist, mass.
    assert (ED : forall k, doc_vocab D inm k l = softmax D (fun d => inm d k) l) by (intros; apply doc_vocab_is; lia). rewrite ED.
    rewrite (vsum_ext K (fun k => exp (out d k) * doc_vocab D inm k l)%R (fun k => exp (out d k) * softmax D (fun d => inm d k) l)%R) by (intros; rewrite ED; reflexivity).
    set (Z := vsum K (fun j => exp (out d j))). assert (HZ : (0 < Z)%R) by (apply exps_pos; lia).
    rewrite (vsum_ext K (fun j => softmax K (out d) j * softmax D (fun d0 => inm d0 j) l)%R (fun j => exp (out d j) * softmax D (fun d0 => inm d0 j) l * / Z)%R)
      by (intros; unfold softmax, Z, Rdiv; ring).
    rewrite vsum_scale_r. set (S := vsum K (fun j => exp (out d j) * softmax D (fun d0 => inm d0 j) l)%R).
    assert (HS : (0 < S)%R) by (apply vsum_pos; [lia|]; intros; apply Rmult_lt_0_compat; [apply exp_pos|apply softmax_pos; lia]).
    replace (softmax K (out d) k) with (exp (out d k) / Z)%R by reflexivity. field. lra.
  Qed.
  (** A document's links are shared out among the topics by the probabilities of the
      topics given the link, and none is lost. *)
  Theorem C156_out_links_shared out inm d : d < D ->
    (forall k, k < K -> out_tops K D L (exp_means K out) (doc_vocab D inm) d k = vsum D (fun l => L d l * link_share K D out inm d l k)%R) /\
    vsum K (out_tops K D L (exp_means K out) (doc_vocab D inm) d) = vsum D (L d).
  Proof.
    clear HT. intros Hd. split; [intros; apply out_tops_is; exact Hd|].
    apply (C64_tokens_conserved K D D L (out_links D L) (exp_means K out) (doc_vocab D inm) d links_counts (doc_vocab_covers K D inm ltac:(lia) ltac:(lia)) Hd).
    intros; apply e_pos.
  Qed.
  Theorem C156_in_links_counted out inm :
    (forall d, d < D -> vsum K (in_tops K D L (exp_means K out) (doc_vocab D inm) d) = vsum D (fun l => L l d)) /\
    vsum K (in_counts K D L (exp_means K out) (doc_vocab D inm)) = vsum D (fun d => vsum D (L d)).
  Proof.
    clear HT. assert (H : forall d, d < D -> vsum K (in_tops K D L (exp_means K out) (doc_vocab D inm) d) = vsum D (fun l => L l d)).
    { intros d Hd. unfold in_tops.
      apply (C64_tokens_conserved K D D (fun d l => L l d) (fun d => vsum D (fun l => L l d)) (exp_means K out) (doc_vocab D inm) d);
        [split; [intros; apply HL; assumption|reflexivity]|apply doc_vocab_covers; lia|exact Hd|intros; apply e_pos]. }
    split; [exact H|]. unfold in_counts. rewrite (vsum_swap K D (fun k d => in_tops K D L (exp_means K out) (doc_vocab D inm) d k)).
    rewrite (vsum_ext D _ (fun d => vsum D (fun l => L l d))) by (intros; apply H; assumption). apply (vsum_swap D D (fun d l => L l d)).
  Qed.
  (** When every link goes both ways, either end sees the shares of the topics of its own
      links. *)
  Theorem C156_symmetric_links out inm : (forall d l, L d l = L l d) ->
    in_tops K D L (exp_means K out) (doc_vocab D inm) = out_tops K D L (exp_means K out) (doc_vocab D inm).
  Proof.
    intros H. unfold in_tops, out_tops. f_equal. extensionality d. extensionality l. apply H.
  Qed.

  (** ** C157: the out-topics improve *)
  Theorem C157_out_topics_improve s s' d : mtm_sound s -> mtm_iter K D T W L n inv s = Ok s' -> d < D ->
    let obj := out_posterior K T D (mt_vocab s') (link_dist D (mt_in s)) (W d) (L d) (mt_mean s') (mt_in s d)
                 (inv (mt_cov s')) (1 / 10) (/ mt_idc s' d) in
    (obj (mt_out s d) <= obj (mt_out s' d))%R.
  Proof.
    intros HS E Hd obj. destruct (C154_topics_improve s s' HS E) as [HV _].
    destruct (iter_shape s s' HS E) as (_ & _ & P1 & P2 & I1 & _ & _ & EM & _ & _ & EO & _).
    set (P := inv (mt_cov s')) in *. set (idc := mt_idc s') in *. set (m := mt_out s d) in *. set (m' := mt_out s' d).
    set (V := fun k => (expected K T (mt_vocab s') (W d) m k + expected K D (doc_vocab D (mt_in s)) (L d) m k)%R).
    set (N := emit D L n d). assert (HN : (0 <= N)%R) by (apply emit_nonneg; exact Hd).
    pose proof (Rinv_0_lt_compat _ (I1 d Hd)) as Hi. fold idc in Hi.
    set (Pa := fun i j => (out_doc_pre * P i j)%R). set (Pb := fun i j => (/ idc d * P i j)%R).
    assert (HPa : symm K Pa) by (intros i j Hi' Hj; unfold Pa; rewrite (P1 i j Hi' Hj); reflexivity).
    assert (HPb : symm K Pb) by (intros i j Hi' Hj; unfold Pb; rewrite (P1 i j Hi' Hj); reflexivity).
    pose proof (positive_covers K T _ ltac:(lia) HV) as Cv. pose proof (doc_vocab_covers K D (mt_in s) ltac:(lia) ltac:(lia)) as Cd.
    destruct (out_lhs_good P idc d P1 P2 (I1 d Hd) Hd) as [LS LP]. destruct (HI _ LS LP) as [LI _].
    assert (HSol : step_solves K (mtm_A K) Pa Pb V (mt_mean s') (mt_in s d) N m m').
    { intros k Hk. set (r := out_rhs K D L n (token_weights K T W (exp_means K (mt_out s)) (mt_vocab s'))
        (out_tops K D L (exp_means K (mt_out s)) (doc_vocab D (mt_in s))) (mt_mean s') P idc (mt_out s) (mt_in s) d).
      rewrite (vsum_ext K _ (fun j => out_lhs K D L n P idc d k j * vsum K (fun l => inv (out_lhs K D L n P idc d) j l * r l))%R).
      2:{ intros j _. unfold m'. rewrite EO. unfold new_out. fold r.
          replace (Pa k j + Pb k j + N * mtm_A K k j)%R with (out_lhs K D L n P idc d k j) by (unfold out_lhs, Pa, Pb, N; ring). reflexivity. }
      rewrite (inverse_solves K (out_lhs K D L n P idc d) inv r LI k Hk). unfold r, out_rhs, V.
      rewrite (token_weights_expected K T W (mt_out s) (mt_vocab s') d k Cv). fold m.
      unfold out_tops. rewrite (token_weights_expected K D L (mt_out s) (doc_vocab D (mt_in s)) d k Cd). fold m.
      rewrite vsoftmax_is by lia. unfold Pa, Pb. rewrite (vsum_ext K (fun j => out_doc_pre * P k j * mt_mean s' j)%R (fun j => out_doc_pre * (P k j * mt_mean s' j))%R) by (intros; ring).
      rewrite (vsum_ext K (fun j => / idc d * P k j * mt_in s d j)%R (fun j => / idc d * (mt_in s d j * P j k))%R) by (intros j Hj; rewrite (P1 k j Hk Hj); ring).
      rewrite !vsum_scale. unfold out_doc_pre, out_doc_cov, N, Rdiv. fold m. fold P. ring. }
    pose proof (surrogate_grows K (mtm_A K) Pa Pb V (mt_mean s') (mt_in s d) N HN (mtm_A_symm K) HPa HPb
      (fun m h => mtm_lse K m h ltac:(lia)) m m') as G.
    assert (G' := G (posdef_psd _ _ (scaled_posdef P out_doc_pre ltac:(unfold out_doc_pre; lra) P2)) (posdef_psd _ _ (scaled_posdef P _ Hi P2)) (mtm_A_psd K ltac:(lia)) HSol).
    clear G. unfold surrogate in G'. unfold Pa, Pb in G'. rewrite !quad_scale in G'.
    destruct HC as [HW Hn].
    pose proof (like_minorised K T (mt_vocab s') (W d) m m' ltac:(lia) Cv (fun t Ht => HW d t Hd Ht)) as B1.
    pose proof (like_minorised K D (doc_vocab D (mt_in s)) (L d) m m' ltac:(lia) Cd (fun l Hl => HL d l Hd Hl)) as B2.
    assert (EL : forall x, log_like K D (link_dist D (mt_in s)) (L d) x = log_like K D (doc_vocab D (mt_in s)) (L d) x).
    { intros x. unfold log_like. apply vsum_ext. intros l _. do 2 f_equal. apply vsum_ext. intros k _. f_equal. symmetry. apply doc_vocab_is. lia. }
    unfold obj, out_posterior. rewrite !EL. fold m m'. fold P idc.
    assert (EV : vsum K (fun k => V k * m' k)%R = (vsum K (fun k => V k * m k) + vsum K (fun k => expected K T (mt_vocab s') (W d) m k * (m' k - m k))
       + vsum K (fun k => expected K D (doc_vocab D (mt_in s)) (L d) m k * (m' k - m k)))%R).
    { rewrite <- !vsum_plus. apply vsum_ext. intros k _. unfold V. ring. }
    rewrite EV in G'. unfold N, emit, out_links in G'. rewrite (Hn d Hd) in G'. unfold out_doc_pre in G'. lra.
  Qed.

  (** ** C158, the case without links: the in-topics become the out-topics *)
  Theorem C158_without_links s s' : (forall d l, d < D -> l < D -> L d l = 0%R) -> mtm_sound s -> mtm_iter K D T W L n inv s = Ok s' ->
    forall d k, d < D -> k < K -> mt_in s' d k = mt_out s d k.
  Proof.
    intros HZ HS E d k Hd Hk. destruct (iter_shape s s' HS E) as (_ & _ & P1 & P2 & I1 & _ & _ & _ & _ & _ & _ & _ & EI & _).
    set (P := inv (mt_cov s')) in *. set (idc := mt_idc s') in *.
    assert (IT : forall d k, d < D -> in_tops K D L (exp_means K (mt_out s)) (doc_vocab D (mt_in s)) d k = 0%R).
    { intros d0 k0 Hd0. unfold in_tops, token_weights. rewrite (vsum_ext D _ (fun _ => 0%R)); [rewrite vsum_zero; ring|].
      intros l Hl. unfold quotient. rewrite HZ by assumption. unfold Rdiv. ring. }
    assert (C0 : forall k, in_counts K D L (exp_means K (mt_out s)) (doc_vocab D (mt_in s)) k = 0%R).
    { intros k0. unfold in_counts. rewrite (vsum_ext D _ (fun _ => 0%R)); [apply vsum_zero|]. intros; apply IT; assumption. }
    set (c := in_counts K D L (exp_means K (mt_out s)) (doc_vocab D (mt_in s))) in *.
    destruct (in_lhs_good P idc c d P1 P2 (I1 d Hd) (fun k Hk => in_counts_nonneg _ _ k Hk)) as [S1 S2]. destruct (HI _ S1 S2) as [_ LI].
    rewrite EI. unfold new_in.
    rewrite (vsum_ext K _ (fun j => inv (in_lhs D P idc c d) k j * vsum K (fun l => in_lhs D P idc c d j l * mt_out s d l))%R).
    - apply (is_inverse_vec K _ _ (mt_out s d) LI k Hk).
    - intros j Hj. f_equal. unfold in_rhs. rewrite (IT d j Hd), (C0 j).
      rewrite (vsum_ext K (fun l => in_lhs D P idc c d j l * mt_out s d l)%R (fun l => / idc d * mt_out s d l * P l j)%R).
      + unfold Rdiv. ring.
      + intros l Hl. unfold in_lhs. rewrite (P1 l j Hl Hj). destruct (j =? l); [rewrite (C0 j)|]; ring.
  Qed.

  (** ** C159: the covariance of the out-topics *)
  Theorem C159_setting_ignored tiny freq stop iterations s odc :
    mtm_train K D T W L n inv tiny freq stop iterations s
    = mtm_train K D T W L n inv tiny freq stop iterations
        {| mt_mean := mt_mean s; mt_cov := mt_cov s; mt_odc := odc; mt_vocab := mt_vocab s; mt_out := mt_out s;
           mt_outv := mt_outv s; mt_in := mt_in s; mt_inv := mt_inv s; mt_idc := mt_idc s |}.
  Proof. reflexivity. Qed.
  Theorem C159_always_ten tiny freq stop iterations s s' :
    mtm_train K D T W L n inv tiny freq stop iterations s = Ok s' -> mt_odc s' = 10%R.
  Proof.
    unfold mtm_train. assert (H0 : mt_odc (mtm_start s) = 10%R) by reflexivity. revert H0. generalize 0 as itr. generalize (mtm_start s) as s0. clear s.
    induction iterations as [|todo IH]; intros s itr H E; cbn [mtm_loop] in E; [inversion E; subst; exact H|].
    destruct (mtm_iter K D T W L n inv s) as [s1|] eqn:E1; cbn [bind] in E; [|discriminate].
    assert (H1 : mt_odc s1 = 10%R).
    { unfold mtm_iter in E1. destruct (cov_loop K D inv (col_mean D (mt_out s)) s 5 (mt_cov s) (mt_idc s)). destruct (D =? 1); [discriminate|]. inversion E1. reflexivity. }
    destruct (logs freq itr); [|apply (IH s1 (S itr) H1 E)].
    destruct (mtm_log_likelihood K D T W L tiny (mt_vocab s1) (mt_out s1) (mt_in s1)); cbn [bind] in E; [|discriminate].
    destruct (stop itr s1); [inversion E; subst; exact H1|apply (IH s1 (S itr) H1 E)].
  Qed.
End train.

(** ** Two documents and a link *)
Definition one_link : mat := fun d l => if (d =? 0) && (l =? 1) then 1%R else 0%R.
Definition no_links : mat := fun _ _ => 0%R.
Definition both_links : mat := fun d l => if d =? l then 0%R else 1%R.
Definition link_state (out inm : mat) : mtm :=
  {| mt_mean := fun _ => 0%R; mt_cov := eye; mt_odc := 1%R; mt_vocab := two_topics; mt_out := out; mt_outv := fun _ _ => 1%R;
     mt_in := inm; mt_inv := fun _ _ => 1%R; mt_idc := fun _ => 1%R |}.
Definition zeros : mat := fun _ _ => 0%R.
Definition ones : mat := fun _ _ => 1%R.
Definition in_two : mat := fun d k => if (d =? 0) && (k =? 0) then ln 2 else 0%R.
Lemma link_state_sound out inm : mtm_sound 2 2 2 (link_state out inm).
Proof. split; [intros; cbn; lra|]. split; [intros; cbn; lra|]. split; [intros; cbn; lra|]. exact two_dists. Qed.
Lemma one_link_nonneg d l : (0 <= one_link d l)%R.
Proof. unfold one_link. destruct ((d =? 0) && (l =? 1)); lra. Qed.
Lemma both_links_nonneg d l : (0 <= both_links d l)%R.
Proof. unfold both_links. destruct (d =? l); lra. Qed.

Ltac two := unfold vsum; cbn [seq map rsum].

(** ** C156: the topics of the links into a document *)
(** They are not those of the links: a single link, from document 0 to document 1, has
    topics 2/5 and 3/5, but is counted as 4/7 and 3/7. *)
Theorem C156_in_links_refuted : exists K D L out inm, (forall d l, (0 <= L d l)%R) /\
  exists l k, l < D /\ k < K /\
    in_tops K D L (exp_means K out) (doc_vocab D inm) l k <> vsum D (fun d => L d l * link_share K D out inm d l k)%R /\
    in_counts K D L (exp_means K out) (doc_vocab D inm) k <> vsum D (fun d => out_tops K D L (exp_means K out) (doc_vocab D inm) d k).
Proof.
  exists 2, 2, one_link, zeros, in_two. split; [intros; apply one_link_nonneg|]. exists 1, 0. split; [lia|]. split; [lia|].
  assert (E2 : exp (ln 2) = 2%R) by (apply exp_ln; lra).
  assert (Hc := doc_vocab_covers 2 2 in_two ltac:(lia) ltac:(lia)).
  assert (L00 : link_dist 2 in_two 0 0 = (2 / 3)%R) by (unfold link_dist, softmax, in_two; two; cbn [Nat.eqb andb]; rewrite E2, exp_0; field).
  assert (L01 : link_dist 2 in_two 0 1 = (1 / 3)%R) by (unfold link_dist, softmax, in_two; two; cbn [Nat.eqb andb]; rewrite E2, exp_0; field).
  assert (L10 : link_dist 2 in_two 1 0 = (1 / 2)%R) by (unfold link_dist, softmax, in_two; two; cbn [Nat.eqb andb]; rewrite exp_0; field).
  assert (L11 : link_dist 2 in_two 1 1 = (1 / 2)%R) by (unfold link_dist, softmax, in_two; two; cbn [Nat.eqb andb]; rewrite exp_0; field).
  assert (SM : forall d k, softmax 2 (zeros d) k = (1 / 2)%R) by (intros; unfold softmax, zeros; two; rewrite exp_0; field).
  assert (DV : forall k l, doc_vocab 2 in_two k l = link_dist 2 in_two k l) by (intros; apply doc_vocab_is; lia).
  assert (S0 : link_share 2 2 zeros in_two 0 1 0 = (2 / 5)%R).
  { unfold link_share. two. rewrite !SM, L01, L11. field. }
  assert (O0 : vsum 2 (fun d => one_link d 1%nat * link_share 2 2 zeros in_two d 1 0)%R = (2 / 5)%R).
  { two. rewrite S0. unfold one_link. cbn [Nat.eqb andb]. ring. }
  assert (I0 : forall d, in_tops 2 2 one_link (exp_means 2 zeros) (doc_vocab 2 in_two) d 0 = if (d =? 1)%nat then (4 / 7)%R else 0%R).
  { intros d. unfold in_tops. rewrite (token_weights_expected 2 2 (fun d l => one_link l d) zeros (doc_vocab 2 in_two) d 0 Hc). unfold expected, mass. two.
    rewrite !DV, L00, L01, L10, L11. unfold one_link, zeros. rewrite exp_0. cbn [Nat.eqb andb]. destruct (d =? 1); field. }
  split; [rewrite O0, I0; cbn [Nat.eqb]; lra|].
  unfold in_counts. two. rewrite !I0. cbn [Nat.eqb].
  assert (OT : forall d, d < 2 -> out_tops 2 2 one_link (exp_means 2 zeros) (doc_vocab 2 in_two) d 0 = vsum 2 (fun l => one_link d l * link_share 2 2 zeros in_two d l 0)%R).
  { intros d Hd. apply (out_tops_is 2 2 one_link); lia. }
  rewrite !OT by lia. two. rewrite S0. unfold one_link. cbn [Nat.eqb andb]. lra.
Qed.

(** ** C158: the in-topics may get worse *)
Lemma two_ln x : (0 < x < 1)%R -> (ln x + ln (1 - x) <= ln (1 / 2) + ln (1 / 2))%R.
Proof.
  intros Hx. rewrite <- !ln_mult by lra. apply Rnot_lt_le. intros H. assert (S := Rle_0_sqr (x - 1 / 2)). unfold Rsqr in S.
  apply ln_lt_inv in H; [lra|lra|apply Rmult_lt_0_compat; lra].
Qed.
Theorem C158_in_topics_refuted : exists K D T W L n inv s s', 1 < K /\ 1 < D /\ 0 < T /\ inverts K inv /\ counts D T W n /\
  (forall d l, (0 <= L d l)%R) /\ (forall d l, L d l = L l d) /\ mtm_sound K D T s /\ mtm_iter K D T W L n inv s = Ok s' /\
  let obj := in_posterior K D L (mt_out s) (inv (mt_cov s')) (mt_idc s') in (obj (mt_in s') < obj (mt_in s))%R.
Proof.
  set (s := link_state ones ones).
  destruct (iter_exists 2 2 2 two_words both_links four inv2 ltac:(lia) s) as [s' E].
  exists 2, 2, 2, two_words, both_links, four, inv2, s, s'.
  assert (SS : mtm_sound 2 2 2 s) by apply link_state_sound.
  do 4 (split; [first [lia|exact inv2_inverts]|]). split; [exact two_counts|]. split; [intros; apply both_links_nonneg|].
  split; [intros d l; unfold both_links; rewrite Nat.eqb_sym; reflexivity|]. split; [exact SS|]. split; [exact E|].
  cbv zeta.
  destruct (iter_shape 2 2 2 two_words both_links four inv2 ltac:(lia) ltac:(lia) inv2_inverts s s' SS E)
    as (C1 & C2 & P1 & P2 & I1 & [pre EC] & _ & EM & _ & _ & _ & _ & EI & _).
  assert (M1 : forall k, mt_mean s' k = 1%R). { intros k. rewrite EM. unfold col_mean, s, link_state, ones. cbn [mt_out INR]. two. field. }
  assert (Cv : forall i j, mt_cov s' i j = if i =? j then (5 / (4 + 1 / 10))%R else 0%R).
  { intros i j. rewrite EC. unfold topic_cov. two. rewrite !M1. unfold s, link_state, ones, eye. cbn [mt_out mt_in mt_outv mt_inv INR].
    destruct (i =? j); field. }
  set (P := inv2 (mt_cov s')) in *. set (idc := mt_idc s') in *.
  assert (Pz : forall i j, i < 2 -> j < 2 -> P i j = if i =? j then (41 / 50)%R else 0%R).
  { intros i j Hi Hj. destruct i as [|[|]]; [| |lia]; (destruct j as [|[|]]; [| |lia]); unfold P, inv2; rewrite !Cv; cbn [Nat.eqb]; field. }
  set (e := exp_means 2 ones) in *. set (dv := doc_vocab 2 ones) in *.
  assert (Ee : forall d k, e d k = 1%R).
  { intros d k. unfold e, exp_means, vmax, ones. cbn [map seq fold_left]. rewrite Rmax_left by lra. rewrite Rminus_diag_eq by reflexivity. apply exp_0. }
  assert (Ed : forall k l, dv k l = (1 / 2)%R).
  { intros k l. unfold dv. rewrite doc_vocab_is by lia. unfold softmax, ones. two. pose proof (exp_pos 1). field. lra. }
  assert (IT : forall d k, d < 2 -> in_tops 2 2 both_links e dv d k = (1 / 2)%R).
  { intros d k Hd. unfold in_tops, token_weights, quotient. two. rewrite !Ee, !Ed. unfold both_links.
    destruct d as [|[|]]; [| |lia]; cbn [Nat.eqb]; field. }
  assert (IC : forall k, in_counts 2 2 both_links e dv k = 1%R).
  { intros k. unfold in_counts. two. rewrite !IT by lia. lra. }
  change (exp_means 2 (mt_out s)) with e in EI. change (doc_vocab 2 (mt_in s)) with dv in EI.
  set (c := in_counts 2 2 both_links e dv) in *.
  assert (IP : forall k, (0 <= c k)%R) by (intros; rewrite IC; lra).
  assert (Eq : forall d k, d < 2 -> k < 2 -> ((/ idc d * (41 / 50) + 1 / 4) * mt_in s' d k = / idc d * (41 / 50) - 1 / 8)%R).
  { intros d k Hd Hk.
    destruct (in_lhs_good 2 2 ltac:(lia) P idc c d P1 P2 (I1 d Hd) (fun k _ => IP k)) as [LS LP].
    destruct (inv2_inverts _ LS LP) as [LI _].
    set (r := in_rhs 2 2 P idc (in_tops 2 2 both_links e dv) c dv (mt_out s) (mt_in s) d).
    pose proof (inverse_solves 2 (in_lhs 2 P idc c d) inv2 r LI k Hk) as Q.
    rewrite (vsum_ext 2 _ (fun j => in_lhs 2 P idc c d k j * mt_in s' d j)%R) in Q by (intros; rewrite EI; reflexivity).
    assert (Er : r k = (/ idc d * (41 / 50) - 1 / 8)%R).
    { unfold r, in_rhs, mtm_F. rewrite (IT d k Hd), (IC k). two. rewrite !Ed, !Pz by lia. unfold s, link_state, ones. cbn [mt_out mt_in INR].
      pose proof (I1 d Hd) as HI. fold idc in HI. destruct k as [|[|]]; [| |lia]; cbn [Nat.eqb]; field; lra. }
    rewrite Er in Q. rewrite <- Q. two. unfold in_lhs. rewrite !IC, !Pz by lia. cbn [INR]. destruct k as [|[|]]; [| |lia]; cbn [Nat.eqb]; field.
    all: pose proof (I1 d Hd) as HI; fold idc in HI; lra. }
  assert (Lt : forall d k, d < 2 -> k < 2 -> (mt_in s' d k < 1)%R).
  { intros d k Hd Hk. pose proof (Eq d k Hd Hk) as Q. pose proof (Rinv_0_lt_compat _ (I1 d Hd)) as Hi. fold idc in Hi.
    destruct (Rlt_le_dec (mt_in s' d k) 1) as [H|H]; [exact H|]. nra. }
  unfold in_posterior.
  assert (SO : forall d k, softmax 2 (mt_out s d) k = (1 / 2)%R).
  { intros d k. unfold softmax, s, link_state, ones. cbn [mt_out]. two. pose proof (exp_pos 1). field. lra. }
  assert (LD : forall k l, link_dist 2 (mt_in s) k l = (1 / 2)%R).
  { intros k l. unfold link_dist, softmax, s, link_state, ones. cbn [mt_in]. two. pose proof (exp_pos 1). field. lra. }
  set (a0 := link_dist 2 (mt_in s') 0 0). set (a1 := link_dist 2 (mt_in s') 1 0).
  assert (B : forall k, (link_dist 2 (mt_in s') k 0%nat + link_dist 2 (mt_in s') k 1%nat = 1)%R).
  { intros k. pose proof (softmax_sum 2 ltac:(lia) (fun d => mt_in s' d k)) as Q. revert Q. two. unfold link_dist. lra. }
  assert (Hp : forall k l, (0 < link_dist 2 (mt_in s') k l)%R) by (intros; apply softmax_pos; lia).
  assert (B0 := B 0). assert (B1 := B 1). fold a0 in B0. fold a1 in B1.
  pose proof (Hp 0 0) as Q1. pose proof (Hp 0 1) as Q2. pose proof (Hp 1 0) as Q3. pose proof (Hp 1 1) as Q4. fold a0 in Q1. fold a1 in Q3.
  pose proof (two_ln ((a0 + a1) / 2) ltac:(lra)) as LN.
  assert (Gap : (0 < vsum 2 (fun d => quad 2 P (fun k => mt_in s' d k - mt_out s d k) (fun k => mt_in s' d k - mt_out s d k) / (2 * idc d)))%R).
  { apply vsum_pos; [lia|]. intros d Hd. pose proof (I1 d Hd) as HI. fold idc in HI. apply Rdiv_lt_0_compat; [|lra].
    apply P2. exists 0. split; [lia|]. pose proof (Lt d 0 Hd ltac:(lia)). unfold s, link_state, ones. cbn [mt_out]. lra. }
  assert (Zero : vsum 2 (fun d => quad 2 P (fun k => mt_in s d k - mt_out s d k) (fun k => mt_in s d k - mt_out s d k) / (2 * idc d))%R = 0%R).
  { rewrite (vsum_ext 2 _ (fun _ => 0%R)); [apply vsum_zero|]. intros d _. unfold quad. two. unfold s, link_state, ones. cbn [mt_out mt_in].
    unfold Rdiv. ring. }
  rewrite Zero.
  assert (X1 : vsum 2 (fun d => vsum 2 (fun l => both_links d l * ln (vsum 2 (fun k => softmax 2 (mt_out s d) k * link_dist 2 (mt_in s) k l))))%R = (ln (1 / 2) + ln (1 / 2))%R).
  { two. rewrite !SO, !LD. unfold both_links. cbn [Nat.eqb]. replace (1 / 2 * (1 / 2) + (1 / 2 * (1 / 2) + 0))%R with (1 / 2)%R by field. ring. }
  assert (X2 : vsum 2 (fun d => vsum 2 (fun l => both_links d l * ln (vsum 2 (fun k => softmax 2 (mt_out s d) k * link_dist 2 (mt_in s') k l))))%R
    = (ln ((a0 + a1) / 2) + ln (1 - (a0 + a1) / 2))%R).
  { two. rewrite !SO. fold a0 a1. replace (link_dist 2 (mt_in s') 0%nat 1%nat) with (1 - a0)%R by lra. replace (link_dist 2 (mt_in s') 1%nat 1%nat) with (1 - a1)%R by lra.
    unfold both_links. cbn [Nat.eqb].
    replace (1 / 2 * (1 - a0) + (1 / 2 * (1 - a1) + 0))%R with (1 - (a0 + a1) / 2)%R by field.
    replace (1 / 2 * a0 + (1 / 2 * a1 + 0))%R with ((a0 + a1) / 2)%R by field. ring. }
  rewrite X1, X2. lra.
Qed.

(** ** C159 *)
Theorem C159_kept_refuted : exists K D T W L n inv tiny s s', 1 < K /\ 1 < D /\ inverts K inv /\ counts D T W n /\ mtm_sound K D T s /\
  mtm_train K D T W L n inv tiny 0 (fun _ _ => false) 1 s = Ok s' /\ mt_odc s' <> mt_odc s.
Proof.
  set (s := link_state zeros zeros). pose proof (link_state_sound zeros zeros) as [S1 [S2 [_ S3]]].
  destruct (C155_training_sound 2 2 2 two_words one_link four inv2 ltac:(lia) ltac:(lia) ltac:(lia) inv2_inverts two_counts
    (fun d l _ _ => one_link_nonneg d l) 1%R 0 (fun _ _ => false) 1 s (or_introl eq_refl) ltac:(lia) S1 S2 S3) as [s' [E _]].
  exists 2, 2, 2, two_words, one_link, four, inv2, 1%R, s, s'. split; [lia|]. split; [lia|]. split; [exact inv2_inverts|]. split; [exact two_counts|].
  split; [apply link_state_sound|]. split; [exact E|]. rewrite (C159_always_ten _ _ _ _ _ _ _ _ _ _ _ _ _ E). cbn [mt_odc link_state s]. lra.
Qed.

(** ** C160: queries of mtm2_vb *)
(** A step that raises the bound at the means where it touches raises the posterior. *)
Lemma bound_improves K T (P : mat) v mu w (m0 m : vec) : 0 < K -> covers K T v -> (forall t, t < T -> (0 <= w t)%R) ->
  (surrogate K P (fun _ _ => 0) (expected K T v w m0) mu mu (vsum T w) m0
   <= surrogate K P (fun _ _ => 0) (expected K T v w m0) mu mu (vsum T w) m)%R ->
  (log_posterior K T v mu P w m0 <= log_posterior K T v mu P w m)%R.
Proof.
  intros HK Hv Hw H. unfold surrogate in H. unfold log_posterior.
  pose proof (like_minorised K T v w m0 m HK Hv Hw) as B.
  assert (Z : forall x y, quad K (fun _ _ => 0%R) x y = 0%R).
  { intros x y. unfold quad. rewrite (vsum_ext K _ (fun _ => 0%R)); [apply vsum_zero|]. intros i _. rewrite (vsum_ext K _ (fun _ => 0%R)); [apply vsum_zero|]. intros; ring. }
  rewrite !Z in H.
  assert (EV : vsum K (fun k => expected K T v w m0 k * (m k - m0 k))%R
    = (vsum K (fun k => expected K T v w m0 k * m k) - vsum K (fun k => expected K T v w m0 k * m0 k))%R).
  { rewrite <- vsum_minus. apply vsum_ext. intros; ring. }
  lra.
Qed.

Section query.
  Variables K D T : nat.
  Variables W L : mat.
  Variable n : vec.
  Variable inv : mat -> mat.
  Variable tiny : R.
  Variable stop : nat -> mtm -> bool.

  Definition same_model (s s' : mtm) : Prop := mt_mean s' = mt_mean s /\ mt_cov s' = mt_cov s /\ mt_odc s' = mt_odc s /\ mt_vocab s' = mt_vocab s /\
    mt_in s' = mt_in s /\ mt_inv s' = mt_inv s /\ mt_idc s' = mt_idc s.
  Lemma query_iter_same s s' : mtm_query_iter K D T W L n inv s = Ok s' -> same_model s s'.
  Proof. unfold mtm_query_iter. destruct (D =? 1); [discriminate|]. intros E. inversion E. repeat split. Qed.
  (** Whatever every iteration keeps, a query keeps; and the last iteration's answer is
      the query's. *)
  Lemma query_invariant freq (Q : mtm -> Prop) :
    (forall s s', Q s -> mtm_query_iter K D T W L n inv s = Ok s' -> Q s') ->
    forall todo itr s s', Q s -> mtm_query K D T W L n inv tiny freq stop itr todo s = Ok s' ->
      Q s' /\ (0 < todo -> exists s0, Q s0 /\ mtm_query_iter K D T W L n inv s0 = Ok s').
  Proof.
    intros HQ. induction todo as [|todo IH]; intros itr s s' Hs E; cbn [mtm_query] in E; [inversion E; subst; split; [exact Hs|lia]|].
    destruct (mtm_query_iter K D T W L n inv s) as [s1|] eqn:E1; cbn [bind] in E; [|discriminate]. pose proof (HQ s s1 Hs E1) as H1.
    assert (R : mtm_query K D T W L n inv tiny freq stop (S itr) todo s1 = Ok s' ->
      Q s' /\ (0 < S todo -> exists s0, Q s0 /\ mtm_query_iter K D T W L n inv s0 = Ok s')).
    { intros E2. destruct (IH (S itr) s1 s' H1 E2) as [A B]. split; [exact A|]. intros _. destruct todo as [|t]; [|apply B; lia].
      cbn [mtm_query] in E2. inversion E2; subst. exists s. split; assumption. }
    destruct (logs freq itr); [|apply R; exact E].
    destruct (mtm_log_likelihood K D T W L tiny (mt_vocab s1) (mt_out s1) (mt_in s1)); cbn [bind] in E; [|discriminate].
    destruct (stop itr s1); [|apply R; exact E]. inversion E; subst. split; [exact H1|]. intros _. exists s. split; assumption.
  Qed.
  Lemma same_trans s s' s'' : same_model s s' -> same_model s' s'' -> same_model s s''.
  Proof. unfold same_model. intros (A & B & C & D' & E & F & G) (A' & B' & C' & D'' & E' & F' & G'). repeat split; congruence. Qed.
  Lemma same_refl s : same_model s s.
  Proof. repeat split. Qed.

  Theorem C160_model_unchanged freq iterations s s' :
    mtm_query K D T W L n inv tiny freq stop 0 iterations s = Ok s' ->
    mt_mean s' = mt_mean s /\ mt_cov s' = mt_cov s /\ mt_odc s' = mt_odc s /\ mt_vocab s' = mt_vocab s.
  Proof.
    intros E. destruct (query_invariant freq (same_model s) (fun a b Ha Hb => same_trans _ _ _ Ha (query_iter_same a b Hb)) iterations 0 s s' (same_refl s) E)
      as [(A & B & C & D' & _) _]. repeat split; assumption.
  Qed.

  Hypothesis HK : 0 < K.
  Hypothesis HC : counts D T W n.
  Hypothesis HI : inverts K inv.

  Lemma q_lhs_good P odc d : symm K P -> posdef K P -> (0 < odc)%R -> (0 <= emit D L n d)%R ->
    symm K (q_lhs K D L n odc P d) /\ posdef K (q_lhs K D L n odc P d).
  Proof.
    intros P1 P2 Ho He. split.
    - intros i j Hi Hj. unfold q_lhs. rewrite (P1 i j Hi Hj), (mtm_A_symm K i j Hi Hj). reflexivity.
    - unfold q_lhs. apply (posdef_add K (fun i j => 1 / odc * P i j)%R (mtm_A K)); [|apply mtm_A_psd; exact HK|exact He].
      apply scaled_posdef; [|exact P2]. apply Rdiv_lt_0_compat; lra.
  Qed.

  (** Of a document without links out, the words decide: every query improves the
      posterior of its out-topics. *)
  Theorem C160_query_improves freq iterations s s' d :
    covers K T (mt_vocab s) -> symm K (mt_cov s) -> posdef K (mt_cov s) -> (0 < mt_odc s)%R -> d < D -> vsum D (L d) = 0%R ->
    mtm_query K D T W L n inv tiny freq stop 0 iterations s = Ok s' ->
    let obj := log_posterior K T (mt_vocab s) (mt_mean s) (fun i j => 1 / mt_odc s * inv (mt_cov s) i j)%R (W d) in
    (obj (mt_out s d) <= obj (mt_out s' d))%R.
  Proof.
    intros Hv C1 C2 Ho Hd H0 E obj.
    destruct (query_invariant freq (fun x => same_model s x /\ (obj (mt_out s d) <= obj (mt_out x d))%R)) with (todo := iterations) (itr := 0) (s := s) (s' := s')
      as [[_ R] _]; [|split; [apply same_refl|lra]|exact E|exact R].
    clear E s'. intros a b [Sa Ha] Eb. split; [exact (same_trans _ _ _ Sa (query_iter_same a b Eb))|].
    apply Rle_trans with (1 := Ha). clear Ha. destruct Sa as (Am & Ac & Ao & Av & _).
    destruct (HI _ C1 C2) as [I1 I2]. pose proof (inverse_symm K _ _ C1 I1 I2) as P1. pose proof (inverse_posdef K _ _ C2 I1 I2) as P2.
    set (P := inv (mt_cov s)) in *. destruct HC as [HW Hn].
    assert (EN : emit D L n d = vsum T (W d)). { unfold emit, out_links. rewrite H0, (Hn d Hd). ring. }
    assert (HN : (0 <= vsum T (W d))%R) by (apply vsum_nonneg; intros; apply HW; assumption).
    unfold mtm_query_iter in Eb. destruct (D =? 1); [discriminate|]. inversion Eb; subst; clear Eb. cbn [mt_out].
    rewrite Am, Ac, Ao, Av. fold P. set (odc := mt_odc s) in *.
    set (m := mt_out a d). set (r := q_rhs K D L n (token_weights K T W (exp_means K (mt_out a)) (mt_vocab s)) (mt_mean s) odc P (mt_out a)).
    set (m' := q_out K D L n inv odc P r d). apply bound_improves; [exact HK|exact Hv|intros; apply HW; assumption|].
    assert (Hodc : (0 < 1 / odc)%R) by (apply Rdiv_lt_0_compat; lra).
    apply (surrogate_grows K (mtm_A K)).
    - exact HN.
    - apply mtm_A_symm.
    - intros i j Hi Hj. rewrite (P1 i j Hi Hj). reflexivity.
    - intros i j _ _. reflexivity.
    - intros; apply mtm_lse; exact HK.
    - apply posdef_psd. apply scaled_posdef; assumption.
    - intros x. unfold quad. apply vsum_nonneg. intros i _. apply vsum_nonneg. intros j _. right. ring.
    - apply mtm_A_psd. exact HK.
    - destruct (q_lhs_good P odc d P1 P2 Ho ltac:(rewrite EN; exact HN)) as [LS LP]. destruct (HI _ LS LP) as [LI _].
      intros k Hk. pose proof (inverse_solves K _ inv (r d) LI k Hk) as Q.
      rewrite (vsum_ext K _ (fun j => q_lhs K D L n odc P d k j * vsum K (fun l => inv (q_lhs K D L n odc P d) j l * r d l))%R).
      + rewrite Q. unfold r, q_rhs. rewrite (token_weights_expected K T W (mt_out a) (mt_vocab s) d k Hv). fold m. rewrite EN.
        rewrite vsoftmax_is by exact HK. fold m.
        rewrite (vsum_ext K (fun j => 1 / odc * P k j * mt_mean s j)%R (fun j => 1 / odc * (P k j * mt_mean s j))%R) by (intros; ring). rewrite vsum_scale.
        rewrite (vsum_ext K (fun j => 0 * mt_mean s j)%R (fun _ => 0%R)) by (intros; ring). rewrite vsum_zero. unfold Rdiv. ring.
      + intros j _. unfold m', q_out.
        replace (1 / odc * P k j + 0 + vsum T (W d) * mtm_A K k j)%R with (q_lhs K D L n odc P d k j) by (unfold q_lhs; rewrite EN; ring). reflexivity.
  Qed.

  Theorem C160_empty_document freq iterations s s' d :
    symm K (mt_cov s) -> posdef K (mt_cov s) -> (0 < mt_odc s)%R -> d < D -> (forall t, t < T -> W d t = 0%R) -> vsum D (L d) = 0%R -> 0 < iterations ->
    mtm_query K D T W L n inv tiny freq stop 0 iterations s = Ok s' -> forall k, k < K -> mt_out s' d k = mt_mean s k.
  Proof.
    intros C1 C2 Ho Hd HW0 H0 Hi E k Hk.
    destruct (query_invariant freq (same_model s) (fun a b Ha Hb => same_trans _ _ _ Ha (query_iter_same a b Hb)) iterations 0 s s' (same_refl s) E) as [_ H].
    destruct (H Hi) as [a [(Am & Ac & Ao & Av & _) Eb]]. clear H E.
    destruct (HI _ C1 C2) as [I1 I2]. pose proof (inverse_symm K _ _ C1 I1 I2) as P1. pose proof (inverse_posdef K _ _ C2 I1 I2) as P2.
    destruct HC as [_ Hn]. assert (EN : emit D L n d = 0%R).
    { unfold emit, out_links. rewrite H0, (Hn d Hd), (vsum_ext T _ (fun _ => 0%R)), vsum_zero by exact HW0. ring. }
    unfold mtm_query_iter in Eb. destruct (D =? 1); [discriminate|]. inversion Eb; subst; clear Eb. cbn [mt_out].
    rewrite Am, Ac, Ao, Av. set (P := inv (mt_cov s)) in *.
    destruct (q_lhs_good P (mt_odc s) d P1 P2 Ho ltac:(rewrite EN; lra)) as [LS LP]. destruct (HI _ LS LP) as [_ LI].
    rewrite <- (is_inverse_vec K _ _ (mt_mean s) LI k Hk). unfold q_out. apply vsum_ext. intros j Hj. f_equal.
    unfold q_rhs, q_lhs. rewrite EN.
    rewrite (vsum_ext K (fun l => (1 / mt_odc s * P j l + 0 * mtm_A K j l) * mt_mean s l)%R (fun l => 1 / mt_odc s * (P j l * mt_mean s l))%R) by (intros; ring).
    rewrite vsum_scale. unfold token_weights. rewrite (vsum_ext T _ (fun _ => 0%R)).
    - rewrite vsum_zero. unfold Rdiv. ring.
    - intros t Ht. unfold quotient. rewrite (HW0 t Ht). unfold Rdiv. ring.
  Qed.
  (** The variance that it is given is less than the prior's. *)
  Theorem C160_empty_variance_too_small freq iterations s s' d :
    symm K (mt_cov s) -> posdef K (mt_cov s) -> (0 < mt_odc s)%R -> (0 < mt_idc s d)%R -> d < D -> (forall t, t < T -> W d t = 0%R) -> vsum D (L d) = 0%R ->
    0 < iterations -> mtm_query K D T W L n inv tiny freq stop 0 iterations s = Ok s' ->
    forall k, k < K -> (mt_outv s' d k < mt_odc s / inv (mt_cov s) k k)%R.
  Proof.
    intros C1 C2 Ho Hidc Hd HW0 H0 Hi E k Hk.
    destruct (query_invariant freq (same_model s) (fun a b Ha Hb => same_trans _ _ _ Ha (query_iter_same a b Hb)) iterations 0 s s' (same_refl s) E) as [_ H].
    destruct (H Hi) as [a [(Am & Ac & Ao & Av & _ & _ & Ai) Eb]]. clear H E.
    destruct (HI _ C1 C2) as [I1 I2]. pose proof (inverse_posdef K _ _ C2 I1 I2) as P2.
    destruct HC as [_ Hn]. assert (EN : emit D L n d = 0%R).
    { unfold emit, out_links. rewrite H0, (Hn d Hd), (vsum_ext T _ (fun _ => 0%R)), vsum_zero by exact HW0. ring. }
    unfold mtm_query_iter in Eb. destruct (D =? 1); [discriminate|]. inversion Eb; subst; clear Eb. cbn [mt_outv].
    unfold out_varcs. rewrite EN, Ac, Ao, Ai. pose proof (diag_of_posdef K _ k P2 Hk) as Hp. set (p := inv (mt_cov s) k k) in *.
    replace (mt_odc s / p)%R with (/ (1 / mt_odc s * p))%R by (field; lra).
    pose proof (Rinv_0_lt_compat _ Hidc). assert (0 < 1 / mt_odc s)%R by (apply Rdiv_lt_0_compat; lra).
    assert (0 < 1 / mt_odc s * p)%R by (apply Rmult_lt_0_compat; assumption). assert (0 < / mt_idc s d * p)%R by (apply Rmult_lt_0_compat; assumption).
    replace (0 * (INR K - 1) / (2 * INR K) + (1 / mt_odc s + / mt_idc s d) * p)%R with (1 / mt_odc s * p + / mt_idc s d * p)%R by (unfold Rdiv; ring).
    apply Rinv_lt_contravar; [|lra]. apply Rmult_lt_0_compat; lra.
  Qed.
End query.

(** Queries of two or more documents succeed unless they log the likelihood of fewer
    documents than topics. *)
Theorem C160_query_succeeds K D T W L n inv tiny freq stop iterations s : 0 < K -> 1 < D -> freq = 0 \/ K <= D ->
  exists s', mtm_query K D T W L n inv tiny freq stop 0 iterations s = Ok s'.
Proof.
  intros HK HD Hf. generalize 0 as itr. revert s. induction iterations as [|i IH]; intros s itr; cbn [mtm_query]; [eexists; reflexivity|].
  unfold mtm_query_iter at 1. destruct (Nat.eqb_spec D 1); [lia|]. cbn [bind].
  destruct (logs freq itr) eqn:E; [|apply IH].
  assert (HKD : K <= D). { destruct Hf as [->|H]; [discriminate E|exact H]. }
  match goal with |- context [mtm_log_likelihood K D T W L tiny ?v ?o ?m] => destruct (likelihood_ok K D T W L tiny v o m HK HKD) as [r ->] end.
  cbn [bind]. match goal with |- context [stop itr ?x] => destruct (stop itr x) end; [eexists; reflexivity|apply IH].
Qed.
(** Of the links, only how many go out of a document counts. *)
Theorem C160_links_only_counted K D T W n inv tiny stop L L' iterations s : (forall d, vsum D (L d) = vsum D (L' d)) ->
  mtm_query K D T W L n inv tiny 0 stop 0 iterations s = mtm_query K D T W L' n inv tiny 0 stop 0 iterations s.
Proof.
  intros H. assert (E : emit D L n = emit D L' n) by (unfold emit, out_links; extensionality d; rewrite H; reflexivity).
  generalize 0 at 2 4 as itr. revert s. induction iterations as [|i IH]; intros s itr; [reflexivity|]. cbn [mtm_query].
  assert (Q : mtm_query_iter K D T W L n inv s = mtm_query_iter K D T W L' n inv s).
  { unfold mtm_query_iter, q_out, q_lhs, q_rhs, out_varcs. rewrite E. reflexivity. }
  rewrite Q. destruct (mtm_query_iter K D T W L' n inv s) as [s1|]; [|reflexivity]. cbn [bind logs Nat.ltb Nat.leb andb]. apply IH.
Qed.
Lemma eye_good : symm 2 eye /\ posdef 2 eye.
Proof.
  split; [intros i j _ _; unfold eye; rewrite Nat.eqb_sym; reflexivity|]. intros x [k [Hk Hx]].
  unfold quad, eye. two. cbn [Nat.eqb]. destruct k as [|[|]]; [| |lia]; nra.
Qed.
Lemma zero_weights d k : d = 0 -> k < 2 -> token_weights 2 2 two_words (exp_means 2 zeros) two_topics d k = if (k =? 0)%nat then (7 / 3)%R else (5 / 3)%R.
Proof.
  intros -> Hk. rewrite (token_weights_expected 2 2 two_words zeros two_topics 0 k (positive_covers 2 2 _ ltac:(lia) two_dists)).
  unfold expected, mass, zeros. two. rewrite exp_0. unfold two_words, two_topics. destruct k as [|[|]]; [| |lia]; cbn [Nat.eqb]; field.
Qed.
(** A link with no words of its own changes a document's topics: as it is counted but not
    explained, the means fall. *)
Theorem C160_links_refuted : exists K D T W n inv tiny stop L L' s s1 s2, counts D T W n /\ inverts K inv /\ (forall d l, (0 <= L' d l)%R) /\
  symm K (mt_cov s) /\ posdef K (mt_cov s) /\ (forall d l, L d l = 0%R) /\
  mtm_query K D T W L n inv tiny 0 stop 0 1 s = Ok s1 /\ mtm_query K D T W L' n inv tiny 0 stop 0 1 s = Ok s2 /\
  (mt_out s1 0%nat 0%nat - mt_out s1 0%nat 1%nat <> mt_out s2 0%nat 0%nat - mt_out s2 0%nat 1%nat)%R.
Proof.
  set (s := link_state zeros zeros).
  destruct (mtm_query 2 2 2 two_words no_links four inv2 1 0 (fun _ _ => false) 0 1 s) as [s1|] eqn:E1; [|discriminate].
  destruct (mtm_query 2 2 2 two_words one_link four inv2 1 0 (fun _ _ => false) 0 1 s) as [s2|] eqn:E2; [|discriminate].
  exists 2, 2, 2, two_words, four, inv2, 1%R, (fun _ _ => false), no_links, one_link, s, s1, s2.
  split; [exact two_counts|]. split; [exact inv2_inverts|]. split; [intros; apply one_link_nonneg|]. destruct eye_good as [Y1 Y2].
  split; [exact Y1|]. split; [exact Y2|]. split; [reflexivity|]. split; [exact E1|]. split; [exact E2|].
  assert (SM : forall d k, vsoftmax 2 (zeros d) k = (1 / 2)%R) by (intros; rewrite vsoftmax_is by lia; unfold softmax, zeros; two; rewrite exp_0; field).
  assert (G : forall L N k, k < 2 -> emit 2 L four 0 = N -> (0 <= N)%R -> q_out 2 2 L four inv2 1 (inv2 eye)
      (q_rhs 2 2 L four (token_weights 2 2 two_words (exp_means 2 zeros) two_topics) (fun _ => 0%R) 1 (inv2 eye) zeros) 0 k
    = ((if (k =? 0)%nat then (1 + N / 2) * (7 / 3 - N / 2) + N / 2 * (5 / 3 - N / 2) else N / 2 * (7 / 3 - N / 2) + (1 + N / 2) * (5 / 3 - N / 2)) / (1 + N))%R).
  { intros L N k Hk HN HN0. unfold q_out. two. unfold q_rhs. rewrite HN, !SM. rewrite !zero_weights by lia. two. unfold zeros.
    assert (Q : forall i j, i < 2 -> j < 2 -> q_lhs 2 2 L four 1 (inv2 eye) 0 i j = (eye i j + N * (eye i j - 1 / 2))%R).
    { intros i j Hi Hj. unfold q_lhs, mtm_A. rewrite HN, inv2_eye by lia. cbn [INR]. field. }
    assert (Aq : forall j, vsum 2 (fun i => 0 * mtm_A 2 i j)%R = 0%R) by (intros; two; ring).
    set (PP := inv2 eye) in *. set (M := q_lhs 2 2 L four 1 PP 0) in *.
    destruct k as [|[|]]; [| |lia]; unfold inv2; rewrite !Q by lia; unfold eye; cbn [Nat.eqb]; field; lra. }
  assert (N1 : emit 2 no_links four 0 = 4%R) by (unfold emit, out_links, no_links, four; two; ring).
  assert (N2 : emit 2 one_link four 0 = 5%R) by (unfold emit, out_links, one_link, four; two; cbn [Nat.eqb andb]; ring).
  cbn [mtm_query mtm_query_iter Nat.eqb bind logs Nat.ltb Nat.leb andb] in E1, E2. inversion E1; subst s1. inversion E2; subst s2. cbn [mt_out].
  change (mt_odc s) with 1%R. change (mt_cov s) with eye. change (mt_mean s) with (fun _ : nat => 0%R). change (mt_out s) with zeros. change (mt_vocab s) with two_topics.
  rewrite !(G no_links 4%R), !(G one_link 5%R) by (try lia; try assumption; lra). cbn [Nat.eqb]. lra.
Qed.
Definition no_words : mat := fun _ _ => 0%R.
Lemma no_counts : counts 2 2 no_words (fun _ => 0%R).
Proof. split; [intros; unfold no_words; lra|]. intros. unfold no_words. two. lra. Qed.
Theorem C160_prior_variance_refuted : exists K D T W L n inv tiny stop s s', counts D T W n /\ inverts K inv /\ symm K (mt_cov s) /\ posdef K (mt_cov s) /\
  (0 < mt_odc s)%R /\ (forall d t, W d t = 0%R) /\ (forall d l, L d l = 0%R) /\
  mtm_query K D T W L n inv tiny 0 stop 0 1 s = Ok s' /\ mt_outv s' 0 0 <> (mt_odc s / inv (mt_cov s) 0%nat 0%nat)%R.
Proof.
  set (s := link_state zeros zeros). destruct eye_good as [Y1 Y2].
  destruct (mtm_query 2 2 2 no_words no_links (fun _ => 0%R) inv2 1 0 (fun _ _ => false) 0 1 s) as [s'|] eqn:E; [|discriminate].
  exists 2, 2, 2, no_words, no_links, (fun _ => 0%R), inv2, 1%R, (fun _ _ => false), s, s'.
  split; [exact no_counts|]. split; [exact inv2_inverts|]. split; [exact Y1|]. split; [exact Y2|]. split; [cbn; lra|]. split; [reflexivity|]. split; [reflexivity|]. split; [exact E|].
  apply Rlt_not_eq. apply (C160_empty_variance_too_small 2 2 2 no_words no_links (fun _ => 0%R) inv2 1 (fun _ _ => false) no_counts inv2_inverts 0 1 s s' 0);
    try assumption; try lia; try reflexivity; try (cbn; lra). two. unfold no_links. ring.
Qed.

(** ** C161: queries of mtm_vb *)
Lemma iter_last {A} (f : A -> A) i x : Nat.iter (S i) f x = f (Nat.iter i f x).
Proof. reflexivity. Qed.
Definition m2_state (K T : nat) (W : mat) (n : vec) (inv : mat -> mat) (V : mat) (mu : vec) (P varcs : mat) (i : nat) (means : mat) : mquery :=
  Nat.iter i (mtm2_query_iter K n inv false V mu P varcs) {| mq_means := means; mq_same := true; mq_cur := means |}.
Lemma m2_state_same K T W n inv V mu P varcs i means :
  mq_same (m2_state K T W n inv V mu P varcs i means) = true /\
  mq_means (m2_state K T W n inv V mu P varcs i means) = mq_cur (m2_state K T W n inv V mu P varcs i means).
Proof.
  induction i as [|i [IH1 IH2]]; [split; reflexivity|]. unfold m2_state in *. rewrite iter_last.
  cbn [mtm2_query_iter mq_same mq_means mq_cur]. rewrite IH1. split; reflexivity.
Qed.
(** The answers are at least as probable as what the query started from. *)
Theorem C161_never_worse K D T W n inv iterations mu cov vocab means r d : 0 < K -> counts D T W n -> inverts K inv -> covers K T vocab ->
  symm K cov -> posdef K cov -> mtm2_query K D T W n inv false iterations mu cov vocab means = Ok r -> d < D ->
  (log_posterior K T vocab mu (inv cov) (W d) (means d) <= log_posterior K T vocab mu (inv cov) (W d) (r d))%R.
Proof.
  intros HK [HW Hn] HI Hv C1 C2 E Hd. unfold mtm2_query in E. destruct (D =? 1); [discriminate|]. inversion E as [E']; subst r; clear E.
  destruct (HI _ C1 C2) as [I1 I2]. pose proof (inverse_symm K _ _ C1 I1 I2) as P1. pose proof (inverse_posdef K _ _ C2 I1 I2) as P2.
  set (P := inv cov) in *. set (varcs := fun d k => (1 / (n d * (INR K - 1) / INR K + P k k))%R).
  set (V := token_weights K T W (exp_means K means) vocab).
  fold (m2_state K T W n inv V mu P varcs iterations means).
  apply bound_improves; [exact HK|exact Hv|intros; apply HW; assumption|].
  assert (HN : (0 <= vsum T (W d))%R) by (apply vsum_nonneg; intros; apply HW; assumption).
  induction iterations as [|i IH]; [right; reflexivity|]. apply Rle_trans with (1 := IH). clear IH.
  destruct (m2_state_same K T W n inv V mu P varcs i means) as [S1 S2]. destruct (m2_state_same K T W n inv V mu P varcs (S i) means) as [_ S3].
  rewrite S3, S2. set (s := m2_state K T W n inv V mu P varcs i means) in *.
  unfold m2_state. rewrite iter_last. fold s. cbn [mtm2_query_iter mq_cur].
  set (m := mq_cur s). set (rr := m2_rhs K n V mu P m).
  apply (surrogate_grows K (mtm_A K)).
  - exact HN.
  - apply mtm_A_symm.
  - exact P1.
  - intros a b _ _. reflexivity.
  - intros; apply mtm_lse; exact HK.
  - apply posdef_psd. exact P2.
  - intros x. unfold quad. apply vsum_nonneg. intros a _. apply vsum_nonneg. intros b _. right. ring.
  - apply mtm_A_psd. exact HK.
  - assert (LS : symm K (m2_lhs K n P d)) by (intros a b Ha Hb; unfold m2_lhs; rewrite (P1 a b Ha Hb), (mtm_A_symm K a b Ha Hb); reflexivity).
    assert (LP : posdef K (m2_lhs K n P d)) by (apply posdef_add; [exact P2|apply mtm_A_psd; exact HK|rewrite (Hn d Hd); exact HN]).
    destruct (HI _ LS LP) as [LI _]. intros k Hk. pose proof (inverse_solves K _ inv (rr d) LI k Hk) as Q.
    rewrite (vsum_ext K _ (fun j => m2_lhs K n P d k j * vsum K (fun l => inv (m2_lhs K n P d) j l * rr d l))%R).
    + rewrite Q. unfold rr, m2_rhs. unfold V. rewrite (token_weights_expected K T W means vocab d k Hv). rewrite (Hn d Hd).
      rewrite vsoftmax_is by exact HK.
      rewrite (vsum_ext K (fun j => 0 * mu j)%R (fun _ => 0%R)) by (intros; ring). rewrite vsum_zero. ring.
    + intros j _. replace (P k j + 0 + vsum T (W d) * mtm_A K k j)%R with (m2_lhs K n P d k j) by (unfold m2_lhs; rewrite (Hn d Hd); ring). reflexivity.
Qed.
Theorem C161_fast_query_returns_softmax K D T W n inv iterations mu cov vocab means r : 0 < K -> 0 < iterations ->
  mtm2_query K D T W n inv true iterations mu cov vocab means = Ok r -> forall d k, r d k = softmax K (means d) k.
Proof.
  intros HK Hi E d k. unfold mtm2_query in E. destruct (D =? 1); [discriminate|]. inversion E as [E']; clear E E'.
  set (V := token_weights K T W (exp_means K means) vocab). set (P := inv cov). set (varcs := fun d k => (1 / (n d * (INR K - 1) / INR K + P k k))%R).
  assert (H : forall i, let s := Nat.iter (S i) (mtm2_query_iter K n inv true V mu P varcs) {| mq_means := means; mq_same := true; mq_cur := means |} in
    mq_same s = false /\ mq_means s = fun d => vsoftmax K (means d)).
  { induction i as [|i IH]; [split; reflexivity|]. cbv zeta in *. rewrite iter_last. destruct IH as [A B].
    set (s := Nat.iter (S i) _ _) in *. cbn [mtm2_query_iter mq_same mq_means]. rewrite A. cbn [andb]. split; [reflexivity|exact B]. }
  destruct iterations as [|i]; [lia|]. destruct (H i) as [_ B]. cbv zeta in B. rewrite B. apply vsoftmax_is. exact HK.
Qed.
Theorem C161_single_document K T W n inv fast iterations mu cov vocab means : mtm2_query K 1 T W n inv fast iterations mu cov vocab means = Raise IndexError.
Proof. reflexivity. Qed.

(** Asking again goes on from where the last query stopped: for the correlated topic model
    so. *)
Lemma means_after_add K T W n inv isigT vocab prior i j m :
  means_after K T W n inv isigT vocab prior i (means_after K T W n inv isigT vocab prior j m) = means_after K T W n inv isigT vocab prior (i + j) m.
Proof. induction i as [|i IH]; [reflexivity|]. cbn [means_after Nat.add]. rewrite IH. reflexivity. Qed.
Theorem C161_ctm_resumes K D T W n inv perp lastPerp i j mu sigT vocab q q1 q2 q' : i + j <= 21 ->
  ctm_query K D T W n inv false perp lastPerp i mu sigT vocab q = Ok q1 ->
  ctm_query K D T W n inv false perp lastPerp j mu sigT vocab q1 = Ok q2 ->
  ctm_query K D T W n inv false perp lastPerp (i + j) mu sigT vocab q = Ok q' -> q_means q2 = q_means q'.
Proof.
  intros H E1 E2 E.
  destruct (C134_query_returns_means _ _ _ _ _ _ _ _ _ _ _ _ _ _ E1) as [a [_ [A1 A2]]].
  destruct (C134_query_returns_means _ _ _ _ _ _ _ _ _ _ _ _ _ _ E2) as [b [_ [B1 B2]]].
  destruct (C134_query_returns_means _ _ _ _ _ _ _ _ _ _ _ _ _ _ E) as [c [_ [D1 D2]]].
  rewrite A1 in A2 by lia. rewrite B1 in B2 by lia. rewrite D1 in D2 by lia. rewrite B2, A2, D2, means_after_add. f_equal. lia.
Qed.
(** For mtm_vb not: the words' shares of the topics are computed only at the start of each
    query. *)
Theorem C161_resumes_refuted : exists K D T W n inv mu cov vocab means r1 r2 r, counts D T W n /\ inverts K inv /\ covers K T vocab /\ symm K cov /\ posdef K cov /\
  mtm2_query K D T W n inv false 1 mu cov vocab means = Ok r1 /\ mtm2_query K D T W n inv false 1 mu cov vocab r1 = Ok r2 /\
  mtm2_query K D T W n inv false 2 mu cov vocab means = Ok r /\ r2 0 0 <> r 0 0.
Proof.
  set (mu := fun _ : nat => 0%R). destruct eye_good as [Y1 Y2]. set (P := inv2 eye).
  set (step := fun V m d k => vsum 2 (fun j => inv2 (m2_lhs 2 four P d) k j * m2_rhs 2 four V mu P m d j)%R).
  set (V0 := token_weights 2 2 two_words (exp_means 2 zeros) two_topics). set (r1 := step V0 zeros).
  set (V1 := token_weights 2 2 two_words (exp_means 2 r1) two_topics).
  exists 2, 2, 2, two_words, four, inv2, mu, eye, two_topics, zeros, r1, (step V1 r1), (step V0 r1).
  assert (Hv := positive_covers 2 2 _ ltac:(lia) two_dists).
  split; [exact two_counts|]. split; [exact inv2_inverts|]. split; [exact Hv|]. split; [exact Y1|]. split; [exact Y2|].
  split; [reflexivity|]. split; [reflexivity|]. split; [reflexivity|].
  assert (HP : forall i j, i < 2 -> j < 2 -> P i j = eye i j) by (exact inv2_eye).
  assert (Lh : forall i j, i < 2 -> j < 2 -> m2_lhs 2 four P 0 i j = if i =? j then 3%R else (-2)%R).
  { intros i j Hi Hj. unfold m2_lhs, mtm_A, four. rewrite HP by lia. unfold eye. cbn [INR]. destruct (i =? j); field. }
  assert (St : forall V m k, k < 2 -> step V m 0 k = ((if (k =? 0)%nat then 3 else 2) / 5 * m2_rhs 2 four V mu P m 0%nat 0%nat + (if (k =? 0)%nat then 2 else 3) / 5 * m2_rhs 2 four V mu P m 0%nat 1%nat)%R).
  { intros V m k Hk. unfold step. two. destruct k as [|[|]]; [| |lia]; unfold inv2; rewrite !Lh by lia; cbn [Nat.eqb]; field. }
  assert (SM : forall d k, vsoftmax 2 (zeros d) k = (1 / 2)%R) by (intros; rewrite vsoftmax_is by lia; unfold softmax, zeros; two; rewrite exp_0; field).
  assert (R0 : forall k, k < 2 -> r1 0 k = if (k =? 0)%nat then (1 / 15)%R else (- (1 / 15))%R).
  { intros k Hk. unfold r1. rewrite St by exact Hk. unfold m2_rhs, V0. rewrite !zero_weights, !SM by lia. two. unfold zeros, mu, four.
    destruct k as [|[|]]; [| |lia]; cbn [Nat.eqb]; field. }
  rewrite !St by lia. cbn [Nat.eqb].
  set (X := fun k => (4 * vsum 2 (fun j => r1 0%nat j * mtm_A 2 j k) + vsum 2 (fun j => P k j * mu j) - 4 * vsoftmax 2 (r1 0%nat) k)%R).
  assert (Rh : forall V k, m2_rhs 2 four V mu P r1 0 k = (V 0%nat k + X k)%R) by (intros; unfold m2_rhs, X, four; ring).
  rewrite !Rh. unfold V0. rewrite !zero_weights by lia. cbn [Nat.eqb].
  unfold V1. rewrite !(token_weights_expected 2 2 two_words r1 two_topics 0) by exact Hv. unfold expected, mass. two.
  rewrite !R0 by lia. cbn [Nat.eqb]. set (a := exp (1 / 15)). set (b := exp (- (1 / 15))).
  assert (Ha : (1 < a)%R) by (pose proof (exp_increasing 0 (1 / 15) ltac:(lra)) as Q; rewrite exp_0 in Q; exact Q).
  assert (Hb : (b < 1)%R) by (pose proof (exp_increasing (- (1 / 15)) 0 ltac:(lra)) as Q; rewrite exp_0 in Q; exact Q).
  assert (Hb0 : (0 < b)%R) by apply exp_pos. unfold two_words, two_topics. cbn [Nat.eqb].
  set (u := (a * (2 / 3) / (a * (2 / 3) + (b * (1 / 3) + 0)))%R). set (v := (a * (1 / 3) / (a * (1 / 3) + (b * (2 / 3) + 0)))%R).
  assert (U : (b * (1 / 3) / (a * (2 / 3) + (b * (1 / 3) + 0)) = 1 - u)%R) by (unfold u; field; lra).
  assert (Vv : (b * (2 / 3) / (a * (1 / 3) + (b * (2 / 3) + 0)) = 1 - v)%R) by (unfold v; field; lra).
  assert (Fr : forall c x y, (0 < y -> c * y < x -> c < x / y)%R).
  { intros c x y Hy H. apply Rmult_lt_reg_r with y; [exact Hy|]. replace (x / y * y)%R with x by (field; lra). exact H. }
  assert (Hu : (2 / 3 < u)%R) by (apply Fr; lra).
  assert (Hv' : (1 / 3 < v)%R) by (apply Fr; lra).
  rewrite U, Vv. lra.
Qed.

(** ** C162: the likelihood *)
Theorem C162_reads_inside K D T W L tiny vocab out inm : 0 < K -> K <= D -> exists r, mtm_log_likelihood K D T W L tiny vocab out inm = Ok r.
Proof. intros HK H. apply likelihood_ok; assumption. Qed.
Theorem C162_outside_refuted : exists K D T W L tiny vocab out inm, 0 < K /\ 0 < D /\ (forall d l, (0 <= L d l)%R) /\
  mtm_log_likelihood K D T W L tiny vocab out inm = Raise MemoryOOB.
Proof.
  exists 3, 2, 2, two_words, one_link, 1%R, two_topics, zeros, zeros. split; [lia|]. split; [lia|]. split; [intros; apply one_link_nonneg|].
  unfold mtm_log_likelihood, link_likely. cbn [seq sum_reads]. unfold link_likely1, one_link. cbn [Nat.eqb andb].
  destruct (Req_EM_T 0 0) as [_|N]; [|exfalso; apply N; reflexivity]. destruct (Req_EM_T 1 0) as [N|_]; [exfalso; lra|]. reflexivity.
Qed.
(** Without links it is the logarithm of the words' probability, as long as that of each
    word is above the floor. *)
Theorem C162_words K D T W L tiny vocab out inm : 0 < K -> (forall d l, L d l = 0%R) ->
  (forall d t, d < D -> t < T -> W d t = 0%R \/ (tiny < vsum K (fun k => softmax K (out d) k * vocab k t))%R) ->
  mtm_log_likelihood K D T W L tiny vocab out inm
  = Ok (vsum D (fun d => vsum T (fun t => W d t * ln (vsum K (fun k => softmax K (out d) k * vocab k t)))))%R.
Proof.
  intros HK HL Hp. unfold mtm_log_likelihood, link_likely.
  assert (Z : forall f ks, (forall k, f k = Ok 0%R) -> sum_reads f ks = Ok 0%R).
  { intros f ks Hf. induction ks as [|k ks IH]; [reflexivity|]. cbn [sum_reads]. rewrite Hf. cbn [bind]. rewrite IH. cbn [bind]. f_equal. ring. }
  rewrite Z.
  2:{ intros d. apply Z. intros l. unfold link_likely1. rewrite HL. destruct (Req_EM_T 0 0) as [_|N]; [reflexivity|exfalso; apply N; reflexivity]. }
  cbn [bind]. f_equal. rewrite Rplus_0_r. unfold word_likely. apply vsum_ext. intros d Hd. apply vsum_ext. intros t Ht.
  assert (E : vsum K (fun k => vsoftmax K (out d) k * vocab k t)%R = vsum K (fun k => softmax K (out d) k * vocab k t)%R)
    by (apply vsum_ext; intros; rewrite vsoftmax_is by exact HK; reflexivity).
  rewrite E. destruct (Hp d t Hd Ht) as [->|H]; [rewrite !Rmult_0_l; reflexivity|].
  unfold safe_ln. unfold rltb. destruct (Rlt_dec tiny (vsum K (fun k => softmax K (out d) k * vocab k t)%R)); [reflexivity|contradiction].
Qed.
(** With links it is not that of the model: the probabilities of the documents are read
    from the wrong places. *)
Theorem C162_links_refuted : exists K D L out inm, (forall d l, (0 <= L d l)%R) /\ K <= D /\ forall T W tiny vocab, (0 < tiny < 1 / 4)%R ->
  (forall d t, W d t = 0%R) -> exists r, mtm_log_likelihood K D T W L tiny vocab out inm = Ok r /\
  r <> vsum D (fun d => vsum D (fun l => L d l * ln (vsum K (fun k => softmax K (out d) k * link_dist D inm k l))))%R.
Proof.
  exists 2, 2, one_link, zeros, in_two. split; [intros; apply one_link_nonneg|]. split; [lia|]. intros T W tiny vocab Ht HW.
  assert (E2 : exp (ln 2) = 2%R) by (apply exp_ln; lra).
  assert (SMv : forall d k, vsoftmax 2 (zeros d) k = (1 / 2)%R) by (intros; rewrite vsoftmax_is by lia; unfold softmax, zeros; two; rewrite exp_0; field).
  assert (SM : forall d k, softmax 2 (zeros d) k = (1 / 2)%R) by (intros; unfold softmax, zeros; two; rewrite exp_0; field).
  assert (L01 : link_dist 2 in_two 0 1 = (1 / 3)%R) by (unfold link_dist, softmax, in_two; two; cbn [Nat.eqb andb]; rewrite E2, exp_0; field).
  assert (L11 : link_dist 2 in_two 1 1 = (1 / 2)%R) by (unfold link_dist, softmax, in_two; two; cbn [Nat.eqb andb]; rewrite exp_0; field).
  assert (CS : forall d, col_softmax 2 in_two d 1 = (1 / 2)%R).
  { intros d. unfold col_softmax. rewrite vsoftmax_is by lia. unfold softmax, in_two. two. cbn [Nat.eqb]. rewrite andb_false_r. cbn [andb]. rewrite exp_0. field. }
  exists (ln (1 / 2)). split.
  - unfold mtm_log_likelihood, word_likely.
    rewrite (vsum_ext 2 _ (fun _ => 0%R)), vsum_zero.
    2:{ intros d _. rewrite (vsum_ext T _ (fun _ => 0%R)); [apply vsum_zero|]. intros; rewrite HW; ring. }
    unfold link_likely. cbn [seq sum_reads]. unfold link_likely1, one_link. cbn [Nat.eqb andb].
    destruct (Req_EM_T 0 0) as [_|N]; [|exfalso; apply N; reflexivity]. destruct (Req_EM_T 1 0) as [N|_]; [exfalso; lra|].
    cbn [seq sum_reads bind]. unfold read_flat. cbn [Nat.mul Nat.add Nat.ltb Nat.leb Nat.div Nat.modulo Nat.divmod fst snd Nat.sub bind].
    rewrite !CS, !SMv. replace (1 / 2 * (1 / 2) + (1 / 2 * (1 / 2) + 0))%R with (1 / 2)%R by field.
    unfold safe_ln, rltb. destruct (Rlt_dec tiny (1 / 2)); [|exfalso; lra]. f_equal. ring.
  - two. rewrite !SM, L01, L11. unfold one_link. cbn [Nat.eqb andb]. rewrite !Rmult_0_l, !Rmult_1_l, !Rplus_0_l, !Rplus_0_r.
    intros H. apply ln_inv in H; lra.
Qed.

(** ** Examples *)
Example C153_example : let v := fst (mtm2_train 2 2 2 two_words false 9 two_means two_topics) in
  snd (mtm2_train 2 2 2 two_words false 9 two_means two_topics) = Raise AssertionError /\ (forall k, k < 2 -> positive_dist 2 (v k)).
Proof.
  split.
  - destruct (C153_mtm_training_never_finishes 2 2 2 two_words false 9 two_means two_topics ltac:(lia) ltac:(lia) ltac:(lia)) as [e [E H]]. rewrite E, (H ltac:(lia)). reflexivity.
  - apply (C153_vocabulary_left_behind 2 2 2 two_words false 9 two_means two_topics); try lia; [exact (proj1 two_counts)|exact two_dists].
Qed.
Example C153_single_example : snd (mtm2_train 2 1 2 two_words true 9 two_means two_topics) = Raise IndexError.
Proof. reflexivity. Qed.
(** Two documents, one linked to the other, two topics. *)
Example C154_example : exists s', mtm_train 2 2 2 two_words one_link four inv2 (1 / 100) 2 (fun _ _ => false) 7 (link_state zeros in_two) = Ok s' /\
  (forall k, k < 2 -> positive_dist 2 (mt_vocab s' k)) /\ posdef 2 (mt_cov s') /\ mt_odc s' = 10%R.
Proof.
  pose proof (link_state_sound zeros in_two) as [S1 [S2 [_ S3]]].
  destruct (C155_training_sound 2 2 2 two_words one_link four inv2 ltac:(lia) ltac:(lia) ltac:(lia) inv2_inverts two_counts
    (fun d l _ _ => one_link_nonneg d l) (1 / 100)%R 2 (fun _ _ => false) 7 (link_state zeros in_two) ltac:(lia) ltac:(lia) S1 S2 S3) as [s' [E [_ [H _]]]].
  exists s'. split; [exact E|]. split; [|split; [exact H|exact (C159_always_ten _ _ _ _ _ _ _ _ _ _ _ _ _ E)]].
  exact (C154_training_topics 2 2 2 two_words one_link four inv2 ltac:(lia) ltac:(lia) ltac:(lia) inv2_inverts two_counts
    (fun d l _ _ => one_link_nonneg d l) _ _ _ _ _ _ S1 S2 S3 E).
Qed.
Example C155_example : exists s', mtm_iter 2 2 2 two_words one_link four inv2 (link_state zeros in_two) = Ok s' /\ mtm_sound 2 2 2 s'.
Proof.
  destruct (C155_iteration_sound 2 2 2 two_words one_link four inv2 ltac:(lia) ltac:(lia) ltac:(lia) inv2_inverts two_counts
    (fun d l _ _ => one_link_nonneg d l) _ (link_state_sound zeros in_two)) as [s' [E [H _]]]. exists s'. split; assumption.
Qed.
Example C156_example : out_tops 2 2 one_link (exp_means 2 zeros) (doc_vocab 2 in_two) 0 0 = (2 / 5)%R /\
  vsum 2 (in_tops 2 2 one_link (exp_means 2 zeros) (doc_vocab 2 in_two) 1) = 1%R.
Proof.
  split.
  - destruct (C156_out_links_shared 2 2 one_link ltac:(lia) ltac:(lia) (fun d l _ _ => one_link_nonneg d l) zeros in_two 0 ltac:(lia)) as [H _]. rewrite H by lia.
    assert (E2 : exp (ln 2) = 2%R) by (apply exp_ln; lra).
    unfold link_share, link_dist, softmax, in_two, zeros, one_link. two. cbn [Nat.eqb andb]. rewrite E2, exp_0. field.
  - destruct (C156_in_links_counted 2 2 one_link ltac:(lia) ltac:(lia) (fun d l _ _ => one_link_nonneg d l) zeros in_two) as [H _]. rewrite H by lia.
    unfold one_link. two. cbn [Nat.eqb andb]. ring.
Qed.
Example C156_symmetric_example : in_tops 2 2 both_links (exp_means 2 two_means) (doc_vocab 2 in_two) = out_tops 2 2 both_links (exp_means 2 two_means) (doc_vocab 2 in_two).
Proof. apply C156_symmetric_links. intros d l. unfold both_links. rewrite Nat.eqb_sym. reflexivity. Qed.
Example C157_example : exists s', mtm_iter 2 2 2 two_words one_link four inv2 (link_state zeros in_two) = Ok s' /\
  let obj := out_posterior 2 2 2 (mt_vocab s') (link_dist 2 in_two) (two_words 0) (one_link 0) (mt_mean s') (in_two 0) (inv2 (mt_cov s')) (1 / 10) (/ mt_idc s' 0%nat) in
  (obj (zeros 0%nat) <= obj (mt_out s' 0%nat))%R.
Proof.
  destruct C155_example as [s' [E _]]. exists s'. split; [exact E|].
  exact (C157_out_topics_improve 2 2 2 two_words one_link four inv2 ltac:(lia) ltac:(lia) ltac:(lia) inv2_inverts two_counts
    (fun d l _ _ => one_link_nonneg d l) _ s' 0 (link_state_sound zeros in_two) E ltac:(lia)).
Qed.
Example C158_example : exists s', mtm_iter 2 2 2 two_words no_links four inv2 (link_state two_means zeros) = Ok s' /\ mt_in s' 1 0 = 1%R.
Proof.
  destruct (iter_exists 2 2 2 two_words no_links four inv2 ltac:(lia) (link_state two_means zeros)) as [s' E]. exists s'. split; [exact E|].
  rewrite (C158_without_links 2 2 2 two_words no_links four inv2 ltac:(lia) ltac:(lia) ltac:(lia) inv2_inverts (fun d l _ _ => Rle_refl 0) _ s'
    (fun d l _ _ => eq_refl) (link_state_sound two_means zeros) E 1 0 ltac:(lia) ltac:(lia)). reflexivity.
Qed.
Example C160_example : exists s', mtm_query 2 2 2 two_words no_links four inv2 (1 / 100) 0 (fun _ _ => false) 0 9 (link_state two_means zeros) = Ok s' /\
  let obj := log_posterior 2 2 two_topics (fun _ => 0%R) (fun i j => 1 / 1 * inv2 eye i j)%R (two_words 1) in (obj (two_means 1%nat) <= obj (mt_out s' 1%nat))%R.
Proof.
  destruct (C160_query_succeeds 2 2 2 two_words no_links four inv2 (1 / 100) 0 (fun _ _ => false) 9 (link_state two_means zeros) ltac:(lia) ltac:(lia) ltac:(lia)) as [s' E].
  exists s'. split; [exact E|]. destruct eye_good as [Y1 Y2].
  refine (C160_query_improves 2 2 2 two_words no_links four inv2 (1 / 100) (fun _ _ => false) ltac:(lia) two_counts inv2_inverts 0 9 (link_state two_means zeros) s' 1
    (positive_covers 2 2 _ ltac:(lia) two_dists) Y1 Y2 _ _ _ E); [cbn; lra|lia|two; unfold no_links; ring].
Qed.
Example C160_empty_example : exists s', mtm_query 2 2 2 no_words no_links (fun _ => 0%R) inv2 (1 / 100) 0 (fun _ _ => false) 0 1 (link_state two_means zeros) = Ok s' /\
  mt_out s' 1 0 = 0%R.
Proof.
  destruct (mtm_query 2 2 2 no_words no_links (fun _ => 0%R) inv2 (1 / 100) 0 (fun _ _ => false) 0 1 (link_state two_means zeros)) as [s'|] eqn:E; [|discriminate].
  exists s'. split; [reflexivity|]. destruct eye_good as [Y1 Y2].
  apply (C160_empty_document 2 2 2 no_words no_links (fun _ => 0%R) inv2 (1 / 100) (fun _ _ => false) ltac:(lia) no_counts inv2_inverts 0 1 (link_state two_means zeros) s' 1 Y1 Y2); try exact E; try lia.
  - cbn. lra.
  - reflexivity.
  - two. unfold no_links. ring.
Qed.
Example C161_example : exists r, mtm2_query 2 2 2 two_words four inv2 false 9 (fun _ => 0%R) eye two_topics two_means = Ok r /\
  (log_posterior 2 2 two_topics (fun _ => 0%R) (inv2 eye) (two_words 1%nat) (two_means 1%nat) <= log_posterior 2 2 two_topics (fun _ => 0%R) (inv2 eye) (two_words 1%nat) (r 1%nat))%R.
Proof.
  assert (E : exists r, mtm2_query 2 2 2 two_words four inv2 false 9 (fun _ => 0%R) eye two_topics two_means = Ok r) by (eexists; reflexivity).
  destruct E as [r E]. exists r. split; [exact E|]. destruct eye_good as [Y1 Y2].
  exact (C161_never_worse 2 2 2 two_words four inv2 9 _ eye two_topics two_means r 1 ltac:(lia) two_counts inv2_inverts (positive_covers 2 2 _ ltac:(lia) two_dists) Y1 Y2 E ltac:(lia)).
Qed.
Example C162_example : mtm_log_likelihood 2 2 2 two_words no_links (1 / 100) two_topics zeros zeros = Ok (8 * ln (1 / 2))%R.
Proof.
  assert (S : forall t, t < 2 -> forall d, vsum 2 (fun k => softmax 2 (zeros d) k * two_topics k t)%R = (1 / 2)%R).
  { intros t Ht d. unfold softmax, zeros, two_topics. two. rewrite exp_0. destruct t as [|[|]]; [| |lia]; cbn [Nat.eqb]; field. }
  rewrite (C162_words 2 2 2 two_words no_links (1 / 100) two_topics zeros zeros ltac:(lia)).
  - f_equal. unfold vsum at 1 2. cbn [seq map rsum]. rewrite !S by lia. unfold two_words. cbn [Nat.eqb]. ring.
  - reflexivity.
  - intros d t _ Ht. right. rewrite (S t Ht d). lra.
Qed.

Print Assumptions C153_mtm_training_never_finishes.
Print Assumptions C153_vocabulary_left_behind.
Print Assumptions C153_trains_refuted.
Print Assumptions C154_topics_improve.
Print Assumptions C155_iteration_sound.
Print Assumptions C155_training_sound.
Print Assumptions C154_training_topics.
Print Assumptions C156_out_links_shared.
Print Assumptions C156_in_links_counted.
Print Assumptions C156_symmetric_links.
Print Assumptions C157_out_topics_improve.
Print Assumptions C158_without_links.
Print Assumptions C159_setting_ignored.
Print Assumptions C159_always_ten.
Print Assumptions C156_in_links_refuted.
Print Assumptions C158_in_topics_refuted.
Print Assumptions C159_kept_refuted.
Print Assumptions C160_model_unchanged.
Print Assumptions C160_query_improves.
Print Assumptions C160_empty_document.
Print Assumptions C160_empty_variance_too_small.
Print Assumptions C160_query_succeeds.
Print Assumptions C160_links_only_counted.
Print Assumptions C160_links_refuted.
Print Assumptions C160_prior_variance_refuted.
Print Assumptions C161_never_worse.
Print Assumptions C161_fast_query_returns_softmax.
Print Assumptions C161_single_document.
Print Assumptions C161_ctm_resumes.
Print Assumptions C161_resumes_refuted.
Print Assumptions C162_reads_inside.
Print Assumptions C162_outside_refuted.
Print Assumptions C162_words.
Print Assumptions C162_links_refuted.
