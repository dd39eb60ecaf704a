(** * C144-C152: the compiled variational LDA. *)
From Coq Require Import List Reals ZArith Arith Bool Lia Lra Permutation.
From Verif Require Import Base RealModel RealProofs GibbsProofs CvbModel MixProofs VbModel VbProofs StmProofs DigammaWitness VbFastModel VbFastProofs.
Import ListNotations.
Open Scope nat_scope.

(** ** Specification *)

(** What is used of the digamma function. *)
Definition digamma_like (psi : R -> R) : Prop :=
  (forall x y, 0 < x -> x < y -> psi x < psi y)%R /\ (forall x, 0 < x -> psi (x + 1) = psi x + / x)%R.

(** Mean field equations of a document whose words are [ws], when [base] is the parameter of
    the Dirichlet prior: the parameters [td] of the posterior are those of the prior plus the
    expected number of tokens of each topic, where the topics of a token are weighted by the
    expected logarithms under [td]. *)
Definition mean_field (psi : R -> R) (K T : nat) (V : mat) (base : vec) (ws : list nat) (td : vec) : Prop :=
  forall k, k < K -> td k = (base k + rsum (map (fun t => share K (fun j => word_score psi T V j t + psi (td j)) k) ws))%R.

(** Proportions of a row. *)
Definition proportions (K : nat) (v : vec) (k : nat) : R := (v k / vsum K v)%R.

(** ** C144 *)
Lemma rsum_zero_all (l : list nat) (f : nat -> R) : (forall x, In x l -> 0 <= f x)%R -> rsum (map f l) = 0%R -> forall x, In x l -> f x = 0%R.
Proof.
  induction l as [|a l IH]; intros H E x Hx; [destruct Hx|]. cbn [map rsum] in E.
  assert (0 <= f a)%R by (apply H; left; reflexivity).
  assert (0 <= rsum (map f l))%R by (apply rsum_nonneg, Forall_forall; intros y Hy; apply in_map_iff in Hy; destruct Hy as (z & <- & Hz); apply H; right; exact Hz).
  destruct Hx as [<-|Hx]; [lra|]. apply IH; [intros; apply H; right; assumption|lra|exact Hx].
Qed.
Lemma ln_mono_term p q : (0 < p -> 0 < q -> 0 <= (ln p - ln q) * (p - q) /\ ((ln p - ln q) * (p - q) = 0 -> p = q))%R.
Proof.
  intros Hp Hq. destruct (Rtotal_order p q) as [H|[H|H]].
  - pose proof (ln_increasing p q Hp H). assert (0 < (ln q - ln p) * (q - p))%R by (apply Rmult_lt_0_compat; lra). split; [lra|intros; lra].
  - subst. split; [lra|reflexivity].
  - pose proof (ln_increasing q p Hq H). assert (0 < (ln p - ln q) * (p - q))%R by (apply Rmult_lt_0_compat; lra). split; [lra|intros; lra].
Qed.
Lemma ln_share K f k : 0 < K -> ln (share K f k) = (f k - ln (vsum K (fun j => exp (f j))))%R.
Proof.
  intros HK. assert (0 < vsum K (fun j => exp (f j)))%R by (apply vsum_pos; [lia|intros; apply exp_pos]).
  unfold share, Rdiv. rewrite ln_mult, ln_exp, ln_Rinv; [ring|assumption|apply exp_pos|apply Rinv_0_lt_compat; assumption].
Qed.
(** Sums of such probabilities determine the scores, up to a constant. *)
Lemma share_sums_inj K (base : nat -> vec) x y ws : 0 < K -> ws <> [] ->
  (forall k, k < K -> rsum (map (fun t => share K (fun j => base t j + x j)%R k) ws) = rsum (map (fun t => share K (fun j => base t j + y j)%R k) ws)) ->
  forall i j, i < K -> j < K -> (x i - y i)%R = (x j - y j)%R.
Proof.
  intros HK Hws H. set (p := fun t => share K (fun j => base t j + x j)%R). set (q := fun t => share K (fun j => base t j + y j)%R).
  set (g := fun t => vsum K (fun k => (x k - y k) * (p t k - q t k))%R).
  assert (E : rsum (map g ws) = 0%R).
  { unfold g, vsum. rewrite rsum_swap. rewrite (rsum_ext _ (fun _ => 0%R)); [rewrite rsum_const; ring|].
    intros k Hk. apply in_seq in Hk. rewrite <- (map_map (fun t => (p t k - q t k)%R) (fun r => ((x k - y k) * r)%R)), rsum_scale.
    assert (rsum (map (fun t => (p t k - q t k)%R) ws) = (rsum (map (fun t => p t k) ws) - rsum (map (fun t => q t k) ws))%R) as ->.
    { clear. induction ws; cbn [map rsum]; [ring|]. rewrite IHws. ring. }
    unfold p, q. rewrite H by lia. ring. }
  assert (Eg : forall t, g t = vsum K (fun k => (ln (p t k) - ln (q t k)) * (p t k - q t k))%R).
  { intros t. unfold g. set (c := (ln (vsum K (fun j => exp (base t j + x j))) - ln (vsum K (fun j => exp (base t j + y j))))%R).
    rewrite (vsum_ext K (fun k => (ln (p t k) - ln (q t k)) * (p t k - q t k))%R (fun k => (x k - y k) * (p t k - q t k) + ((- c) * p t k + c * q t k))%R).
    - rewrite vsum_plus, vsum_plus, !vsum_scale. unfold p, q. rewrite !share_sum by exact HK. ring.
    - intros k Hk. unfold p at 1, q at 1. rewrite !ln_share by exact HK. unfold c. ring. }
  assert (Pp : forall t k, (0 < p t k)%R) by (intros; apply share_pos; exact HK).
  assert (Pq : forall t k, (0 < q t k)%R) by (intros; apply share_pos; exact HK).
  assert (Ng : forall t, (0 <= g t)%R).
  { intros t. rewrite Eg. apply vsum_nonneg. intros k Hk. apply ln_mono_term; [apply Pp|apply Pq]. }
  destruct ws as [|t ws]; [congruence|].
  assert (G0 : g t = 0%R) by (apply (rsum_zero_all (t :: ws) g (fun t _ => Ng t) E); left; reflexivity).
  rewrite Eg in G0. unfold vsum in G0.
  assert (Epq : forall k, k < K -> p t k = q t k).
  { intros k Hk. apply (ln_mono_term (p t k) (q t k) (Pp t k) (Pq t k)).
    refine (rsum_zero_all (seq 0 K) (fun k => (ln (p t k) - ln (q t k)) * (p t k - q t k))%R _ G0 k _); [|apply in_seq; lia].
    intros k' _. apply ln_mono_term; [apply Pp|apply Pq]. }
  intros i j Hi Hj. pose proof (share_inj K _ _ HK Epq i j Hi Hj) as F. cbv beta in F. lra.
Qed.


Section Statements.
  Context (psi : R -> R) (low : R) (K T D : nat) (W : nat -> nat -> nat) (lens : nat -> nat) (prior : vec).
  Context (HK : 0 < K) (Hprior : forall k, k < K -> (/ 10 ^ 300 <= prior k + INR D / INR K)%R).

  (** Inference makes three passes, and the result is that of the first: the topics of a token
      are weighted by the prior instead of the topics of the document. *)
  Theorem C144_three_passes_one_step V d z : exists td z',
    infer_topics psi low K D W lens prior (di_vocab psi V) (di_sums psi T V) d z = (3, td, z') /\
    (forall k, (k < K)%nat -> td k = prior k + INR D / INR K
       + rsum (map (fun t => share K (fun j => word_score psi T V j t + psi (prior j + INR D / INR K)) k) (doc_words W lens d)))%R.
  Proof.
    destruct (infer_is psi low K T D W lens prior HK Hprior V d z) as (td & z' & E & H & _). exists td, z'. split; [exact E|exact H].
  Qed.

  (** When the result satisfies the mean field equations. *)
  Theorem C144_fixed_point_iff V d z itrs td z' :
    infer_topics psi low K D W lens prior (di_vocab psi V) (di_sums psi T V) d z = (itrs, td, z') ->
    mean_field psi K T V (fun k => (prior k + INR D / INR K)%R) (doc_words W lens d) td <->
    lens d = 0 \/ (forall i j, i < K -> j < K ->
       (psi (td i) - psi (prior i + INR D / INR K))%R = (psi (td j) - psi (prior j + INR D / INR K))%R).
  Proof.
    intros E. destruct (infer_is psi low K T D W lens prior HK Hprior V d z) as (td1 & z1 & E1 & H & _).
    rewrite E in E1. injection E1 as -> -> ->. unfold over_words, first_share in H. split.
    - intros M. destruct (lens d) as [|n] eqn:El; [left; reflexivity|]. right.
      apply (share_sums_inj K (fun t j => word_score psi T V j t) (fun j => psi (td1 j)) (fun j => psi (prior j + INR D / INR K)%R) (doc_words W lens d) HK).
      + unfold doc_words. rewrite El. discriminate.
      + intros k Hk. specialize (M k Hk). rewrite (H k Hk) in M at 1. cbv beta in M. apply Rplus_eq_reg_l in M. symmetry. exact M.
    - intros [H0|C] k Hk.
      + rewrite (H k Hk) at 1. unfold doc_words. rewrite H0. reflexivity.
      + rewrite (H k Hk) at 1. f_equal. apply rsum_ext. intros t _. symmetry.
        apply (share_shift K _ _ (psi (td1 0%nat) - psi (prior 0%nat + INR D / INR K))%R k Hk). intros j Hj.
        pose proof (C j 0 Hj HK). lra.
  Qed.

  (** ** C145 *)
  (** Topics found by a query for document [d]. *)
  Theorem C145_topics_of_a_document (W' : nat -> nat -> nat) (lens' : nat -> nat) low' double n n' s s' r r' d d' :
    (forall k t, k < K -> v_vocab s' k t = v_vocab s k t) ->
    0 < D -> d < D -> d' < D -> (1 <= n)%Z -> (1 <= n')%Z ->
    Permutation (doc_words W' lens' d') (doc_words W lens d) ->
    query psi low K T D W lens prior double n s = Ok r ->
    query psi low' K T D W' lens' prior double n' s' = Ok r' ->
    forall k, k < K -> v_topics r' d' k = v_topics r d k.
  Proof.
    intros HV HD Hd Hd' Hn Hn' HP Hr Hr' k Hk.
    apply query_is in Hr; try assumption. apply query_is in Hr'; try assumption.
    rewrite (proj2 Hr) by assumption. rewrite (proj2 Hr') by assumption. f_equal.
    unfold over_words. rewrite (rsum_permuted _ _ (Permutation_map _ HP)). apply rsum_ext. intros t _.
    unfold first_share. apply share_ext; [exact Hk|]. intros j Hj. unfold word_score. rewrite HV by exact Hj.
    rewrite (vsum_ext T (v_vocab s' j) (v_vocab s j)); [reflexivity|]. intros; apply HV; exact Hj.
  Qed.
  (** The same for training, of which the topics are those of the vocabulary before the last iteration. *)
  Theorem C145_topics_in_training (W' : nat -> nat -> nat) (lens' : nat -> nat) low' vocabPrior s s' d d' :
    (forall k t, k < K -> v_vocab s' k t = v_vocab s k t) ->
    d < D -> d' < D ->
    Permutation (doc_words W' lens' d') (doc_words W lens d) ->
    forall k, k < K -> v_topics (iterate_f32 psi low' K T D W' lens' prior vocabPrior 1 s') d' k
                     = v_topics (iterate_f32 psi low K T D W lens prior vocabPrior 1 s) d k.
  Proof.
    intros HV Hd Hd' HP k Hk. unfold iterate_f32. rewrite !iterS. cbn [Nat.iter nat_rect].
    destruct (iterate1_is psi low K T D W lens prior HK Hprior vocabPrior s) as (r & -> & H & _).
    destruct (iterate1_is psi low' K T D W' lens' prior HK Hprior vocabPrior s') as (r' & -> & H' & _).
    rewrite H, H' by assumption. f_equal.
    unfold over_words. rewrite (rsum_permuted _ _ (Permutation_map _ HP)). apply rsum_ext. intros t _.
    unfold first_share. apply share_ext; [exact Hk|]. intros j Hj. unfold word_score. rewrite HV by exact Hj.
    rewrite (vsum_ext T (v_vocab s' j) (v_vocab s j)); [reflexivity|]. intros; apply HV; exact Hj.
  Qed.

  (** ** C146 *)
  Lemma vsum_over_words (f : nat -> vec) d : (forall t, vsum K (f t) = 1%R) -> vsum K (fun k => over_words W lens d (fun t => f t k)) = INR (lens d).
  Proof.
    intros H. unfold over_words, vsum. rewrite rsum_swap. rewrite (rsum_ext _ (fun _ => 1%R)); [|intros t _; apply H].
    rewrite rsum_const. unfold doc_words. rewrite map_length, seq_length. ring.
  Qed.
  Theorem C146_total_has_number_of_documents double n s r d :
    0 < D -> d < D -> (1 <= n)%Z ->
    query psi low K T D W lens prior double n s = Ok r ->
    vsum K (v_topics r d) = (vsum K prior + INR D + INR (lens d))%R /\
    (forall k, (k < K)%nat -> prior k + INR D / INR K <= v_topics r d k)%R.
  Proof.
    intros HD Hd Hn Hr. apply query_is in Hr; try assumption. destruct Hr as [_ H]. split.
    - rewrite (vsum_ext K (v_topics r d) (fun k => (prior k + (INR D / INR K + over_words W lens d (fun t => first_share psi K T D prior (v_vocab s) t k)))%R)).
      + rewrite vsum_plus, vsum_plus, vsum_const, vsum_over_words by (intros; apply share_sum; exact HK).
        assert (0 < INR K)%R by (apply (lt_INR 0); exact HK). field. lra.
      + intros k Hk. rewrite H by assumption. ring.
    - intros k Hk. rewrite H by assumption.
      assert (0 <= over_words W lens d (fun t => first_share psi K T D prior (v_vocab s) t k))%R; [|lra].
      apply rsum_nonneg, Forall_forall. intros y Hy. apply in_map_iff in Hy. destruct Hy as (t & <- & _). left. apply share_pos, HK.
  Qed.
  (** The tokens themselves are given distributions. *)
  Theorem C146_token_distributions V d z itrs td z' :
    infer_topics psi low K D W lens prior (di_vocab psi V) (di_sums psi T V) d z = (itrs, td, z') ->
    forall n, n < lens d -> (forall k, k < K -> (0 < z' n k)%R) /\ vsum K (z' n) = 1%R.
  Proof.
    intros E n Hn. destruct (infer_is psi low K T D W lens prior HK Hprior V d z) as (td1 & z1 & E1 & _ & H & _).
    rewrite E in E1. injection E1 as -> -> ->. split.
    - intros k Hk. rewrite H by assumption. apply share_pos, HK.
    - rewrite (vsum_ext K (z1 n) (first_share psi K T D prior V (W d n))) by (intros; apply H; assumption). apply share_sum, HK.
  Qed.

  (** ** C147 *)
  Theorem C147_word_counts vocabPrior n s : 1 <= n ->
    forall t, vsum K (fun k => v_vocab (iterate_f32 psi low K T D W lens prior vocabPrior n s) k t)
      = (INR K * vocabPrior + vsum D (fun d => over_words W lens d (fun u => if t =? u then 1 else 0)))%R.
  Proof.
    intros Hn t. destruct n as [|n]; [lia|]. unfold iterate_f32. rewrite iterS.
    destruct (iterate1_is psi low K T D W lens prior HK Hprior vocabPrior (Nat.iter n (iterate1 psi low K T D W lens prior vocabPrior) s)) as (r & -> & _ & H).
    rewrite (vsum_ext K _ (fun k => _ + _)%R (fun k Hk => H k t Hk)).
    rewrite vsum_plus, vsum_const, vsum_scale. unfold first_share. rewrite share_sum by exact HK. unfold occurs. ring.
  Qed.
  Theorem C147_at_least_prior vocabPrior n s k t : 1 <= n -> k < K ->
    (vocabPrior <= v_vocab (iterate_f32 psi low K T D W lens prior vocabPrior n s) k t)%R.
  Proof.
    intros Hn Hk. destruct n as [|n]; [lia|]. unfold iterate_f32. rewrite iterS.
    destruct (iterate1_is psi low K T D W lens prior HK Hprior vocabPrior (Nat.iter n (iterate1 psi low K T D W lens prior vocabPrior) s)) as (r & -> & _ & H).
    rewrite H by exact Hk.
    assert (0 <= vsum D (fun d => occurs W lens d t))%R.
    { apply vsum_nonneg. intros d _. apply rsum_nonneg, Forall_forall. intros y Hy. apply in_map_iff in Hy. destruct Hy as (u & <- & _). destruct (t =? u); lra. }
    pose proof (share_pos K (fun k => word_score psi T (v_vocab (Nat.iter n (iterate1 psi low K T D W lens prior vocabPrior) s)) k t + psi (prior k + INR D / INR K))%R k HK) as P.
    pose proof (Rmult_le_pos _ _ H0 (Rlt_le _ _ P)). unfold first_share. lra.
  Qed.
  Lemma vsum_indicator n w (c : nat -> R) : w < n -> vsum n (fun t => (if t =? w then 1 else 0) * c t)%R = c w.
  Proof.
    intros Hw. induction n as [|n IH]; [lia|]. unfold vsum in *. rewrite seq_S, map_app, rsum_app. cbn [map rsum Nat.add].
    destruct (Nat.eq_dec w n) as [->|Hne].
    - rewrite Nat.eqb_refl. rewrite (rsum_ext _ (fun _ => 0%R)); [rewrite rsum_const; ring|].
      intros t Ht. apply in_seq in Ht. destruct (Nat.eqb_spec t n); [lia|ring].
    - rewrite IH by lia. destruct (Nat.eqb_spec n w); [lia|ring].
  Qed.
  (** The words given to a topic are those that the documents give it. *)
  Theorem C147_topic_counts vocabPrior n s k : 1 <= n -> k < K ->
    (forall d i, d < D -> i < lens d -> W d i < T) ->
    (let r := iterate_f32 psi low K T D W lens prior vocabPrior n s in
     vsum T (v_vocab r k) - INR T * vocabPrior = vsum D (fun d => v_topics r d k - prior k - INR D / INR K))%R.
  Proof.
    intros Hn Hk HW. destruct n as [|n]; [lia|]. cbv zeta. unfold iterate_f32. rewrite iterS.
    set (s0 := Nat.iter n (iterate1 psi low K T D W lens prior vocabPrior) s).
    destruct (iterate1_is psi low K T D W lens prior HK Hprior vocabPrior s0) as (r & -> & Ht & Hv).
    set (f := fun t => first_share psi K T D prior (v_vocab s0) t k).
    rewrite (vsum_ext T (v_vocab r k) (fun t => vocabPrior + vsum D (fun d => occurs W lens d t * f t))%R).
    2:{ intros t _. rewrite Hv by exact Hk. rewrite vsum_scale_r. reflexivity. }
    rewrite vsum_plus, vsum_const, vsum_swap.
    rewrite (vsum_ext D (fun d => v_topics r d k - prior k - INR D / INR K)%R (fun d => vsum T (fun t => occurs W lens d t * f t))%R); [ring|].
    intros d Hd. rewrite Ht by assumption. fold (f).
    transitivity (over_words W lens d f); [unfold f; ring|].
    unfold occurs, over_words, doc_words. rewrite !map_map.
    rewrite (vsum_ext T _ (fun t => rsum (map (fun i => (if t =? W d i then 1 else 0) * f t)%R (seq 0 (lens d))))).
    2:{ intros t _. rewrite <- (map_map (fun i => (if t =? W d i then 1 else 0)%R) (fun r => (r * f t)%R)).
        clear. rewrite !map_map. induction (seq 0 (lens d)) as [|i l IH]; cbn [map rsum]; [ring|]. rewrite <- IH. ring. }
    unfold vsum. rewrite rsum_swap. apply rsum_ext. intros i Hi. apply in_seq in Hi. symmetry.
    apply (vsum_indicator T (W d i) f). apply HW; [exact Hd|lia].
  Qed.
End Statements.

(** ** Two topics, a document with one token *)
Definition w0 (d n : nat) : nat := 0.
Definition one_token (d : nat) : nat := 1.
Definition prior1 (k : nat) : R := 1%R.
(** Topics with the same proportions and different counts. *)
Definition V12 (k t : nat) : R := if k =? 0 then 1%R else 2%R.
Definition flat (k t : nat) : R := 1%R.

Lemma vsum2 v : vsum 2 v = (v 0%nat + v 1%nat)%R.
Proof. unfold vsum. cbn [seq map rsum]. ring. Qed.
Lemma over_one d f : over_words w0 one_token d f = f 0%nat.
Proof. unfold over_words, doc_words, one_token, w0. cbn [seq map rsum]. ring. Qed.
Lemma share2_less f : (f 0%nat < f 1%nat)%R -> (share 2 f 0%nat < 1 / 2)%R.
Proof.
  intros H. unfold share. rewrite vsum2. pose proof (exp_increasing _ _ H). pose proof (exp_pos (f 0%nat)).
  apply (Rmult_lt_reg_r (exp (f 0%nat) + exp (f 1%nat))); [lra|]. unfold Rdiv at 1. rewrite Rmult_assoc, Rinv_l by lra. lra.
Qed.
Lemma share2_sum f : (share 2 f 0%nat + share 2 f 1%nat)%R = 1%R.
Proof. rewrite <- vsum2. apply share_sum. lia. Qed.
Lemma share2_half f : f 0%nat = f 1%nat -> (share 2 f 0%nat = 1 / 2)%R.
Proof. intros H. unfold share. rewrite vsum2, H. pose proof (exp_pos (f 1%nat)). field. lra. Qed.
Lemma scores12 psi : digamma_like psi -> (word_score psi 2 V12 0%nat 0%nat = -1 /\ word_score psi 2 V12 1%nat 0%nat = - (5 / 6))%R.
Proof.
  intros [_ H]. unfold word_score, V12. rewrite !vsum2. cbn [Nat.eqb].
  pose proof (H 1%R ltac:(lra)). pose proof (H 2%R ltac:(lra)). pose proof (H 3%R ltac:(lra)).
  replace (2 + 1)%R with 3%R in * by ring. replace (3 + 1)%R with 4%R in * by ring. replace (2 + 2)%R with 4%R by ring. replace (1 + 1)%R with 2%R in * by ring.
  rewrite Rinv_1 in *. lra.
Qed.
Lemma prior_big D : forall k, k < 2 -> (/ 10 ^ 300 <= prior1 k + INR D / INR 2)%R.
Proof.
  intros k _. unfold prior1. assert (0 <= INR D / INR 2)%R.
  { apply Rmult_le_pos; [apply pos_INR|]. left. apply Rinv_0_lt_compat. cbn. lra. }
  assert (/ 10 ^ 300 <= 1)%R; [|lra]. rewrite <- Rinv_1. apply Rinv_le_contravar; [lra|]. apply pow_R1_Rle. lra.
Qed.
Lemma first12 psi D : digamma_like psi -> (first_share psi 2 2 D prior1 V12 0%nat 0%nat < 1 / 2)%R.
Proof.
  intros H. apply share2_less. destruct (scores12 psi H) as [-> ->]. unfold prior1. lra.
Qed.
Lemma query_one psi low T D prior s : 0 < D -> (forall k, k < 2 -> (/ 10 ^ 300 <= prior k + INR D / INR 2)%R) ->
  exists r, query psi low 2 T D w0 one_token prior true 1 s = Ok r /\
   forall d k, d < D -> k < 2 -> v_topics r d k = (prior k + INR D / INR 2 + first_share psi 2 T D prior (v_vocab s) 0%nat k)%R.
Proof.
  intros HD Hp. destruct (query psi low 2 T D w0 one_token prior true 1 s) as [r|e] eqn:E.
  - exists r. split; [reflexivity|]. apply query_is in E; [|lia|assumption|assumption|lia]. intros d k Hd Hk. rewrite (proj2 E) by assumption. rewrite over_one. reflexivity.
  - exfalso. unfold query in E. destruct (D =? 0) eqn:ED; [apply Nat.eqb_eq in ED; lia|discriminate].
Qed.

(** The result of inference satisfies the mean field equations neither of the given prior nor of the one that the
    code adds to. *)
Theorem C144_inference_reaches_fixed_point_refuted psi low : digamma_like psi ->
  exists (K T D : nat) W lens prior s r,
    0 < K /\ 0 < D /\ (forall k, k < K -> (0 < prior k)%R) /\ (forall k t, (0 < v_vocab s k t)%R) /\
    (forall d n, d < D -> n < lens d -> W d n < T) /\
    query psi low K T D W lens prior true 1 s = Ok r /\
    ~ mean_field psi K T (v_vocab s) prior (doc_words W lens 0) (v_topics r 0) /\
    ~ mean_field psi K T (v_vocab s) (fun k => prior k + INR D / INR K)%R (doc_words W lens 0) (v_topics r 0).
Proof.
  intros Hpsi. set (s := mkV flat V12 flat).
  destruct (query_one psi low 2 1 prior1 s ltac:(lia) (prior_big 1)) as (r & E & H).
  exists 2, 2, 1, w0, one_token, prior1, s, r.
  pose proof (H 0 0 ltac:(lia) ltac:(lia)) as H0. pose proof (H 0 1 ltac:(lia) ltac:(lia)) as H1.
  pose proof (first12 psi 1 Hpsi) as L. pose proof (share2_sum (fun k => word_score psi 2 V12 k 0%nat + psi (prior1 k + INR 1 / INR 2))%R) as S.
  change (share 2 (fun k => word_score psi 2 V12 k 0%nat + psi (prior1 k + INR 1 / INR 2))%R) with (first_share psi 2 2 1 prior1 V12 0) in S.
  change (v_vocab s) with V12 in H0, H1. clear H.
  assert (P0 : (0 < first_share psi 2 2 1 prior1 V12 0%nat 0%nat)%R) by (apply share_pos; lia).
  assert (B : forall k, (prior1 k + INR 1 / INR 2 = 3 / 2)%R) by (intros; unfold prior1; cbn; lra).
  rewrite B in H0, H1.
  split; [lia|]. split; [lia|]. split; [intros; unfold prior1; lra|].
  split; [intros k t; unfold s, V12; cbn; destruct (k =? 0); lra|]. split; [intros; unfold w0; lia|]. split; [exact E|]. split.
  - intros M. pose proof (M 0 ltac:(lia)) as M0. pose proof (M 1 ltac:(lia)) as M1. unfold doc_words, one_token, w0 in M0, M1. cbn [seq map rsum] in M0, M1.
    change (v_vocab s) with V12 in M0, M1. pose proof (share2_sum (fun j => word_score psi 2 V12 j 0%nat + psi (v_topics r 0%nat j))%R) as S'.
    unfold prior1 in M0, M1. lra.
  - intros M.
    assert (Eq : forall k, k < 2 -> share 2 (fun j => word_score psi 2 V12 j 0%nat + psi (v_topics r 0%nat j))%R k = first_share psi 2 2 1 prior1 V12 0 k).
    { intros k Hk. pose proof (M k Hk) as Mk. unfold doc_words, one_token, w0 in Mk. cbn [seq map rsum] in Mk. change (v_vocab s) with V12 in Mk. rewrite B in Mk.
      assert (k = 0 \/ k = 1) as [-> | ->] by lia; lra. }
    pose proof (share_inj 2 _ _ ltac:(lia) Eq 0 1 ltac:(lia) ltac:(lia)) as J. cbv beta in J. rewrite !B in J.
    assert (psi (v_topics r 0%nat 0%nat) < psi (v_topics r 0%nat 1%nat))%R; [|lra].
    apply (proj1 Hpsi); lra.
Qed.

(** ** C145 *)
(** The topics found depend on the number of the documents queried together. *)
Theorem C145_independent_of_number_of_documents_refuted psi low : digamma_like psi ->
  exists (K T : nat) W lens prior s r1 r2,
    0 < K /\ (forall k, k < K -> (0 < prior k)%R) /\ (forall k t, (0 < v_vocab s k t)%R) /\
    (forall d n, n < lens d -> W d n < T) /\ doc_words W lens 0 = doc_words W lens 1 /\
    query psi low K T 1 W lens prior true 1 s = Ok r1 /\ query psi low K T 2 W lens prior true 1 s = Ok r2 /\
    proportions K (v_topics r1 0) 0 <> proportions K (v_topics r2 0) 0.
Proof.
  intros Hpsi. set (s := mkV flat V12 flat).
  destruct (query_one psi low 2 1 prior1 s ltac:(lia) (prior_big 1)) as (r1 & E1 & H1).
  destruct (query_one psi low 2 2 prior1 s ltac:(lia) (prior_big 2)) as (r2 & E2 & H2).
  exists 2, 2, w0, one_token, prior1, s, r1, r2.
  split; [lia|]. split; [intros; unfold prior1; lra|]. split; [intros k t; unfold s, V12; cbn; destruct (k =? 0); lra|].
  split; [intros; unfold w0; lia|]. split; [reflexivity|]. split; [exact E1|]. split; [exact E2|].
  unfold proportions. rewrite !vsum2, !H1, !H2 by lia. change (v_vocab s) with V12.
  assert (Eq : forall k, k < 2 -> first_share psi 2 2 2 prior1 V12 0 k = first_share psi 2 2 1 prior1 V12 0 k).
  { intros k Hk. apply (share_shift 2 _ _ (psi (1 + INR 2 / INR 2) - psi (1 + INR 1 / INR 2))%R k Hk). intros j Hj. unfold prior1. ring. }
  rewrite !Eq by lia. pose proof (first12 psi 1 Hpsi) as L.
  pose proof (share2_sum (fun k => word_score psi 2 V12 k 0%nat + psi (prior1 k + INR 1 / INR 2))%R) as S.
  change (share 2 (fun k => word_score psi 2 V12 k 0%nat + psi (prior1 k + INR 1 / INR 2))%R) with (first_share psi 2 2 1 prior1 V12 0) in S.
  set (a := first_share psi 2 2 1 prior1 V12 0%nat 0%nat) in *. set (b := first_share psi 2 2 1 prior1 V12 0%nat 1%nat) in *.
  assert (b = (1 - a)%R) as -> by lra. unfold prior1. cbn [INR]. intros E.
  replace (1 + 1 / (1 + 1) + a + (1 + 1 / (1 + 1) + (1 - a)))%R with 4%R in E by field.
  replace (1 + (1 + 1) / (1 + 1) + a + (1 + (1 + 1) / (1 + 1) + (1 - a)))%R with 5%R in E by field. lra.
Qed.

(** ** C146 *)
(** The counts of topics of a document are more than those of its prior and of its tokens. *)
Theorem C146_total_counts_refuted psi low : digamma_like psi ->
  exists (K T D : nat) W lens prior s r,
    0 < K /\ 0 < D /\ (forall k, k < K -> (0 < prior k)%R) /\ (forall k t, (0 < v_vocab s k t)%R) /\
    (forall d n, n < lens d -> W d n < T) /\
    query psi low K T D W lens prior true 1 s = Ok r /\
    vsum K (v_topics r 0) <> (vsum K prior + INR (lens 0%nat))%R.
Proof.
  intros _. set (s := mkV flat V12 flat).
  destruct (query_one psi low 2 1 prior1 s ltac:(lia) (prior_big 1)) as (r & E & H).
  exists 2, 2, 1, w0, one_token, prior1, s, r.
  split; [lia|]. split; [lia|]. split; [intros; unfold prior1; lra|]. split; [intros k t; unfold s, V12; cbn; destruct (k =? 0); lra|].
  split; [intros; unfold w0; lia|]. split; [exact E|].
  pose proof (C146_total_has_number_of_documents psi low 2 2 1 w0 one_token prior1 ltac:(lia) (prior_big 1) true 1 s r 0 ltac:(lia) ltac:(lia) ltac:(lia) E) as [-> _].
  cbn [INR]. lra.
Qed.

(** ** C148 *)
(** Asking for the words of the topics and then querying. *)
Theorem C148_looking_leaves_queries_refuted psi low : digamma_like psi ->
  exists (K T D : nat) W lens prior s r1 r2,
    0 < K /\ 0 < D /\ (forall k, k < K -> (0 < prior k)%R) /\ (forall k t, (0 < v_vocab s k t)%R) /\
    (forall d n, n < lens d -> W d n < T) /\
    query psi low K T D W lens prior true 1 s = Ok r1 /\
    query psi low K T D W lens prior true 1 (word_dists T s) = Ok r2 /\
    proportions K (v_topics r1 0) 0 <> proportions K (v_topics r2 0) 0.
Proof.
  intros Hpsi. set (s := mkV flat V12 flat).
  destruct (query_one psi low 2 1 prior1 s ltac:(lia) (prior_big 1)) as (r1 & E1 & H1).
  destruct (query_one psi low 2 1 prior1 (word_dists 2 s) ltac:(lia) (prior_big 1)) as (r2 & E2 & H2).
  exists 2, 2, 1, w0, one_token, prior1, s, r1, r2.
  split; [lia|]. split; [lia|]. split; [intros; unfold prior1; lra|]. split; [intros k t; unfold s, V12; cbn; destruct (k =? 0); lra|].
  split; [intros; unfold w0; lia|]. split; [exact E1|]. split; [exact E2|].
  unfold proportions. rewrite !vsum2, !H1, !H2 by lia. change (v_vocab s) with V12. change (v_vocab (word_dists 2 s)) with (norm_rows 2 V12).
  assert (Eh : (first_share psi 2 2 1 prior1 (norm_rows 2 V12) 0%nat 0%nat = 1 / 2)%R).
  { apply share2_half. unfold word_score, norm_rows, prior1. rewrite !vsum2. unfold V12. cbn [Nat.eqb].
    replace (2 / (2 + 2))%R with (1 / (1 + 1))%R by field. reflexivity. }
  pose proof (first12 psi 1 Hpsi) as L.
  pose proof (share2_sum (fun k => word_score psi 2 V12 k 0%nat + psi (prior1 k + INR 1 / INR 2))%R) as S.
  change (share 2 (fun k => word_score psi 2 V12 k 0%nat + psi (prior1 k + INR 1 / INR 2))%R) with (first_share psi 2 2 1 prior1 V12 0) in S.
  pose proof (share2_sum (fun k => word_score psi 2 (norm_rows 2 V12) k 0%nat + psi (prior1 k + INR 1 / INR 2))%R) as S'.
  change (share 2 (fun k => word_score psi 2 (norm_rows 2 V12) k 0%nat + psi (prior1 k + INR 1 / INR 2))%R) with (first_share psi 2 2 1 prior1 (norm_rows 2 V12) 0) in S'.
  set (a := first_share psi 2 2 1 prior1 V12 0%nat 0%nat) in *. set (b := first_share psi 2 2 1 prior1 V12 0%nat 1%nat) in *.
  set (a' := first_share psi 2 2 1 prior1 (norm_rows 2 V12) 0%nat 0%nat) in *. set (b' := first_share psi 2 2 1 prior1 (norm_rows 2 V12) 0%nat 1%nat) in *.
  assert (b = (1 - a)%R) as -> by lra. assert (b' = (1 - a')%R) as -> by lra. unfold prior1. cbn [INR]. intros E.
  replace (1 + 1 / (1 + 1) + a + (1 + 1 / (1 + 1) + (1 - a)))%R with 4%R in E by field.
  replace (1 + 1 / (1 + 1) + a' + (1 + 1 / (1 + 1) + (1 - a')))%R with 4%R in E by field. lra.
Qed.
(** Asking again changes nothing, nor does asking a model whose topics are distributions. *)
Theorem C148_look_normalised K T s :
  (forall k, k < K -> vsum T (v_vocab s k) = 1%R) ->
  forall k t, k < K -> v_vocab (look K T s) k t = v_vocab s k t.
Proof. intros H k t Hk. unfold look, topic_dists, word_dists, norm_rows. cbn [v_vocab]. rewrite H by exact Hk. field. Qed.
Theorem C148_look_gives_distributions K T D s :
  (forall k, k < K -> vsum T (v_vocab s k) <> 0%R) -> (forall d, d < D -> vsum K (v_topics s d) <> 0%R) ->
  (forall k, k < K -> vsum T (v_vocab (look K T s) k) = 1%R) /\ (forall d, d < D -> vsum K (v_topics (look K T s) d) = 1%R) /\
  (forall k t, k < K -> v_vocab (look K T (look K T s)) k t = v_vocab (look K T s) k t) /\
  (forall d k, d < D -> v_topics (look K T (look K T s)) d k = v_topics (look K T s) d k).
Proof.
  intros HV HT.
  assert (A : forall k, k < K -> vsum T (v_vocab (look K T s) k) = 1%R).
  { intros k Hk. unfold look, topic_dists, word_dists, norm_rows. cbn [v_vocab]. unfold Rdiv. rewrite vsum_scale_r. apply Rinv_r, HV, Hk. }
  assert (B : forall d, d < D -> vsum K (v_topics (look K T s) d) = 1%R).
  { intros d Hd. unfold look, topic_dists, word_dists, norm_rows. cbn [v_topics]. unfold Rdiv. rewrite vsum_scale_r. apply Rinv_r, HT, Hd. }
  split; [exact A|]. split; [exact B|]. split.
  - intros k t Hk. apply C148_look_normalised; assumption.
  - intros d k Hd. transitivity (v_topics (look K T s) d k / vsum K (v_topics (look K T s) d))%R; [reflexivity|]. rewrite B by exact Hd. field.
Qed.

(** ** C149 *)
Section Training.
  Context (psi : R -> R) (low : R) (K T D : nat) (W : nat -> nat -> nat) (lens : nat -> nat) (prior : vec) (vocabPrior : R).
  Let its n s := iterate_f32 psi low K T D W lens prior vocabPrior n s.

  (** Training that does not converge early, in single precision: iterations and looking at
      the model alternate. *)
  Theorem C149_training_alternates batchSize step iterations logFrequency s :
    0 < D -> (forall d, d < D -> 1 <= lens d) -> (1 <= logFrequency <= iterations)%Z ->
    train psi low K T D W lens prior vocabPrior false false batchSize step iterations logFrequency (fun _ => false) s
    = Ok (look K T (iterate_f32 psi low K T D W lens prior vocabPrior (Z.to_nat (logFrequency + iterations mod logFrequency))
            (Nat.iter (Z.to_nat (iterations / logFrequency - 1))
               (fun s => look K T (iterate_f32 psi low K T D W lens prior vocabPrior (Z.to_nat logFrequency) s)) s))).
  Proof.
    intros HD Hl Hf. unfold train. cbv zeta.
    assert (existsb (fun d => lens d <? 1) (seq 0 D) = false) as ->.
    { apply not_true_is_false. intros H. apply existsb_exists in H. destruct H as (d & Hd & H). apply in_seq in Hd. specialize (Hl d ltac:(lia)). apply Nat.ltb_lt in H. lia. }
    unfold log_points. destruct (Z.eqb_spec logFrequency 0); [lia|].
    assert (1 <= iterations / logFrequency)%Z by (apply Z.div_le_lower_bound; lia).
    destruct (Z.ltb_spec (iterations / logFrequency) 0); [lia|]. destruct (Nat.eqb_spec D 0); [lia|].
    assert (G : forall segs s, train_loop K T (fun j s => if negb (11 =? iterate_arity false) then Raise TypeError else Ok (its (Z.to_nat logFrequency) s)) (fun _ => false) segs s
      = Ok (Nat.iter (length segs) (fun s => look K T (its (Z.to_nat logFrequency) s)) s, false)).
    { clear. intros segs. induction segs as [|j segs IH]; intros s; [reflexivity|]. cbn [train_loop length]. cbn [bind negb Nat.eqb iterate_arity]. cbn [iterate_arity negb Nat.eqb] in IH.
      rewrite IH. do 2 f_equal. clear. generalize (length segs) as n. intros n. induction n as [|n IHn]; [reflexivity|]. rewrite iterS, IHn, iterS. reflexivity. }
    unfold its in G. rewrite G, seq_length. cbn [bind fst snd negb iterate_arity Nat.eqb].
    destruct (Z.eqb_spec (iterations / logFrequency) 0); [lia|]. do 2 f_equal.
    unfold remainder_iters, log_points. destruct (Z.eqb_spec logFrequency 0); [lia|].
    replace (iterations - logFrequency * (iterations / logFrequency - 1))%Z with (logFrequency + iterations mod logFrequency)%Z; [reflexivity|].
    rewrite Z.mod_eq by lia. lia.
  Qed.
  (** So with one segment the frequency makes no difference. *)
  Corollary C149_single_segment batchSize step iterations f s :
    0 < D -> (forall d, d < D -> 1 <= lens d) -> (1 <= f)%Z -> (iterations / f = 1)%Z ->
    train psi low K T D W lens prior vocabPrior false false batchSize step iterations f (fun _ => false) s
    = Ok (look K T (iterate_f32 psi low K T D W lens prior vocabPrior (Z.to_nat iterations) s)).
  Proof.
    intros HD Hl Hf E. assert (f <= iterations)%Z.
    { destruct (Z.lt_ge_cases iterations f); [|assumption]. destruct (Z.lt_ge_cases iterations 0).
      - assert (iterations / f < 0)%Z by (apply Z.div_lt_upper_bound; lia). lia.
      - rewrite Z.div_small in E by lia. lia. }
    rewrite C149_training_alternates by (assumption || lia). rewrite E. cbn [Z.sub Z.to_nat Nat.iter nat_rect Z.opp Z.add Z.pos_sub].
    do 3 f_equal. rewrite Z.mod_eq, E by lia. lia.
  Qed.
End Training.

(** The topics of the document of one token after a second iteration. *)
Lemma second_iteration psi low s : exists r, iterate1 psi low 2 2 1 w0 one_token prior1 1 s = r /\
  (forall k, k < 2 -> v_topics r 0 k = (3 / 2 + first_share psi 2 2 1 prior1 (v_vocab s) 0%nat k)%R) /\
  (forall k, k < 2 -> v_vocab r k 0 = (1 + first_share psi 2 2 1 prior1 (v_vocab s) 0%nat k)%R /\ v_vocab r k 1 = 1%R).
Proof.
  destruct (iterate1_is psi low 2 2 1 w0 one_token prior1 ltac:(lia) (prior_big 1) 1%R s) as (r & E & Ht & Hv). exists r. split; [exact E|]. split.
  - intros k Hk. rewrite Ht by lia. rewrite over_one. unfold prior1 at 1. cbn [INR]. field.
  - intros k Hk. rewrite !Hv by exact Hk. unfold vsum. cbn [seq map rsum]. unfold occurs. rewrite !over_one. cbn [Nat.eqb]. split; ring.
Qed.

(** How often progress is logged decides what is learnt. *)
Theorem C149_logging_no_influence_refuted psi low batchSize step : digamma_like psi ->
  exists (K T D : nat) W lens prior vocabPrior s r1 r2,
    0 < K /\ 0 < D /\ (forall k, k < K -> (0 < prior k)%R) /\ (0 < vocabPrior)%R /\ (forall k t, (0 < v_vocab s k t)%R) /\
    (forall d n, n < lens d -> W d n < T) /\
    train psi low K T D W lens prior vocabPrior false false batchSize step 2 1 (fun _ => false) s = Ok r1 /\
    train psi low K T D W lens prior vocabPrior false false batchSize step 2 2 (fun _ => false) s = Ok r2 /\
    v_topics r1 0 0 <> v_topics r2 0 0.
Proof.
  intros Hpsi. set (s := mkV flat V12 flat).
  set (it := iterate1 psi low 2 2 1 w0 one_token prior1 1).
  exists 2, 2, 1, w0, one_token, prior1, 1%R, s, (look 2 2 (it (look 2 2 (it s)))), (look 2 2 (it (it s))).
  split; [lia|]. split; [lia|]. split; [intros; unfold prior1; lra|]. split; [lra|]. split; [intros k t; unfold s, V12; cbn; destruct (k =? 0); lra|].
  split; [intros; unfold w0; lia|].
  split; [rewrite C149_training_alternates by (lia || (intros; unfold one_token; lia)); reflexivity|].
  split; [rewrite C149_training_alternates by (lia || (intros; unfold one_token; lia)); reflexivity|].
  destruct (second_iteration psi low s) as (r & E & _ & Hv). fold it in E. rewrite E. clear E.
  destruct (second_iteration psi low (look 2 2 r)) as (ra & Ea & Ha & _). fold it in Ea. rewrite Ea. clear Ea.
  destruct (second_iteration psi low r) as (rb & Eb & Hb & _). fold it in Eb. rewrite Eb. clear Eb.
  change (proportions 2 (v_topics ra 0) 0 <> proportions 2 (v_topics rb 0) 0). unfold proportions. rewrite !vsum2, !Ha, !Hb by lia.
  pose proof (first12 psi 1 Hpsi) as L.
  pose proof (share2_sum (fun k => word_score psi 2 V12 k 0%nat + psi (prior1 k + INR 1 / INR 2))%R) as S.
  change (share 2 (fun k => word_score psi 2 V12 k 0%nat + psi (prior1 k + INR 1 / INR 2))%R) with (first_share psi 2 2 1 prior1 V12 0) in S.
  assert (P0 : (0 < first_share psi 2 2 1 prior1 V12 0%nat 0%nat)%R) by (apply share_pos; lia).
  change (v_vocab s) with V12 in Hv.
  set (a := first_share psi 2 2 1 prior1 V12 0%nat 0%nat) in *. set (b := first_share psi 2 2 1 prior1 V12 0%nat 1%nat) in *.
  destruct (Hv 0 ltac:(lia)) as [V00 V01]. destruct (Hv 1 ltac:(lia)) as [V10 V11]. fold a in V00. fold b in V10.
  (* scores without looking *)
  assert (Sb0 : word_score psi 2 (v_vocab r) 0 0 = (- / (1 + a))%R).
  { unfold word_score. rewrite vsum2, V00, V01. pose proof (proj2 Hpsi (1 + a)%R ltac:(lra)). lra. }
  assert (Sb1 : word_score psi 2 (v_vocab r) 1 0 = (- / (1 + b))%R).
  { unfold word_score. rewrite vsum2, V10, V11. pose proof (proj2 Hpsi (1 + b)%R ltac:(lra)). lra. }
  (* scores after looking *)
  set (x := ((1 + b) / (1 + b + 1))%R). set (y := ((1 + a) / (1 + a + 1))%R).
  assert (Sa0 : word_score psi 2 (v_vocab (look 2 2 r)) 0 0 = (psi y - psi 1)%R).
  { unfold word_score, look, word_dists, topic_dists, norm_rows. cbn [v_vocab]. rewrite !vsum2, V00, V01. unfold y. do 2 f_equal. field. lra. }
  assert (Sa1 : word_score psi 2 (v_vocab (look 2 2 r)) 1 0 = (psi x - psi 1)%R).
  { unfold word_score, look, word_dists, topic_dists, norm_rows. cbn [v_vocab]. rewrite !vsum2, V10, V11. unfold x. do 2 f_equal. field. lra. }
  assert (Ix : (/ x = 1 + / (1 + b))%R) by (unfold x; field; split; lra).
  assert (Iy : (/ y = 1 + / (1 + a))%R) by (unfold y; field; split; lra).
  assert (Hy : (0 < y)%R) by (unfold y; apply Rdiv_lt_0_compat; lra).
  assert (Hx : (0 < x)%R) by (unfold x; apply Rdiv_lt_0_compat; lra).
  assert (Hxy : (y < x)%R).
  { assert (/ (1 + b) < / (1 + a))%R by (apply Rinv_lt_contravar; [apply Rmult_lt_0_compat; lra|lra]).
    rewrite <- (Rinv_inv x), <- (Rinv_inv y). apply Rinv_lt_contravar; [apply Rmult_lt_0_compat; apply Rinv_0_lt_compat; assumption|lra]. }
  assert (G : (/ (1 + a) - / (1 + b) < psi x - psi y)%R).
  { pose proof (proj2 Hpsi x Hx). pose proof (proj2 Hpsi y Hy). pose proof (proj1 Hpsi (y + 1)%R (x + 1)%R ltac:(lra) ltac:(lra)). lra. }
  pose proof (share2_sum (fun k => word_score psi 2 (v_vocab (look 2 2 r)) k 0%nat + psi (prior1 k + INR 1 / INR 2))%R) as Sa.
  change (share 2 (fun k => word_score psi 2 (v_vocab (look 2 2 r)) k 0%nat + psi (prior1 k + INR 1 / INR 2))%R) with (first_share psi 2 2 1 prior1 (v_vocab (look 2 2 r)) 0) in Sa.
  pose proof (share2_sum (fun k => word_score psi 2 (v_vocab r) k 0%nat + psi (prior1 k + INR 1 / INR 2))%R) as Sb.
  change (share 2 (fun k => word_score psi 2 (v_vocab r) k 0%nat + psi (prior1 k + INR 1 / INR 2))%R) with (first_share psi 2 2 1 prior1 (v_vocab r) 0) in Sb.
  intros E.
  assert (Q : first_share psi 2 2 1 prior1 (v_vocab (look 2 2 r)) 0 0 = first_share psi 2 2 1 prior1 (v_vocab r) 0 0).
  { replace (3 / 2 + first_share psi 2 2 1 prior1 (v_vocab (look 2 2 r)) 0%nat 0%nat + (3 / 2 + first_share psi 2 2 1 prior1 (v_vocab (look 2 2 r)) 0%nat 1%nat))%R with 4%R in E by lra.
    replace (3 / 2 + first_share psi 2 2 1 prior1 (v_vocab r) 0%nat 0%nat + (3 / 2 + first_share psi 2 2 1 prior1 (v_vocab r) 0%nat 1%nat))%R with 4%R in E by lra. lra. }
  assert (Q2 : forall k, k < 2 -> first_share psi 2 2 1 prior1 (v_vocab (look 2 2 r)) 0 k = first_share psi 2 2 1 prior1 (v_vocab r) 0 k).
  { intros k Hk. assert (k = 0 \/ k = 1) as [-> | ->] by lia; [exact Q|lra]. }
  pose proof (share_inj 2 _ _ ltac:(lia) Q2 0 1 ltac:(lia) ltac:(lia)) as J. cbv beta in J. rewrite Sa0, Sa1, Sb0, Sb1 in J. unfold prior1 in J. lra.
Qed.

(** ** C150 *)
(** Training in double precision returns only if it is stochastic and converges early. *)
Lemma train_loop_stops K T call stop segs : forall s r, train_loop K T call stop segs s = Ok (r, true) -> exists j, In j segs /\ stop j = true.
Proof.
  induction segs as [|j segs IH]; intros s r H; [discriminate|]. cbn [train_loop] in H. destruct (call j s) as [s'|e]; [|discriminate]. cbn [bind] in H.
  destruct (stop j) eqn:E; [exists j; split; [left; reflexivity|exact E]|]. destruct (IH _ _ H) as (i & Hi & Ei). exists i. split; [right; exact Hi|exact Ei].
Qed.
Theorem C150_double_precision_training psi low K T D W lens prior vocabPrior stochastic batchSize step iterations logFrequency stop s r :
  train psi low K T D W lens prior vocabPrior stochastic true batchSize step iterations logFrequency stop s = Ok r ->
  stochastic = true /\ exists j, (Z.of_nat j + 1 < iterations / logFrequency)%Z /\ stop j = true.
Proof.
  intros H. unfold train in H. destruct (existsb _ _); [discriminate|]. cbv zeta in H. destruct (_ <? 0)%Z; [discriminate|]. destruct (D =? 0); [discriminate|].
  destruct (train_loop _ _ _ _ _ _) as [[r' b]|e] eqn:E; [|discriminate]. cbn [bind snd fst] in H. destruct b; [|discriminate].
  pose proof (train_loop_stops _ _ _ _ _ _ _ E) as (j & Hj & Ej). apply in_seq in Hj. unfold log_points in Hj, E.
  destruct (logFrequency =? 0)%Z; [cbn in Hj; lia|]. split.
  - destruct stochastic; [reflexivity|]. exfalso. destruct (seq 0 (Z.to_nat (iterations / logFrequency - 1))) as [|i l] eqn:El; [cbn in E; discriminate|].
    cbn [train_loop iterate_arity negb Nat.eqb bind] in E. discriminate.
  - exists j. split; [lia|exact Ej].
Qed.
(** In either precision: unless training converged early, the model that it returns cannot be queried. *)
Theorem C150_trained_model_cannot_be_queried psi low K T D W lens prior vocabPrior stochastic double batchSize step iterations logFrequency stop s r :
  (forall j, stop j = false) ->
  train psi low K T D W lens prior vocabPrior stochastic double batchSize step iterations logFrequency stop s = Ok r ->
  forall n D' W' lens', 0 < D' -> (1 <= n)%Z -> query psi low K T D' W' lens' prior double n r = Raise ValueError.
Proof.
  intros Hs H n D' W' lens' HD Hn. destruct double.
  - apply C150_double_precision_training in H. destruct H as [_ (j & _ & Hj)]. rewrite Hs in Hj. discriminate.
  - unfold query. destruct (Nat.eqb_spec D' 0); [lia|]. destruct (Z.leb_spec n 0); [lia|reflexivity].
Qed.
Theorem C150_train_then_query_refuted psi low :
  exists (K T D : nat) W lens prior vocabPrior s r,
    0 < K /\ 0 < D /\ (forall k, k < K -> (0 < prior k)%R) /\ (0 < vocabPrior)%R /\ (forall k t, (0 < v_vocab s k t)%R) /\
    (forall d n, n < lens d -> W d n < T) /\
    train psi low K T D W lens prior vocabPrior false false 0 (fun _ _ => 0%R) 1 1 (fun _ => false) s = Ok r /\
    query psi low K T D W lens prior false 1 r = Raise ValueError.
Proof.
  set (s := mkV flat V12 flat). exists 2, 2, 1, w0, one_token, prior1, 1%R, s. eexists.
  split; [lia|]. split; [lia|]. split; [intros; unfold prior1; lra|]. split; [lra|]. split; [intros k t; unfold s, V12; cbn; destruct (k =? 0); lra|].
  split; [intros; unfold w0; lia|]. split; [apply C149_single_segment; (lia || (intros; unfold one_token; lia) || reflexivity)|]. reflexivity.
Qed.

(** ** C151 *)
Section Stochastic.
  Context (psi : R -> R) (low : R) (K T D : nat) (W : nat -> nat -> nat) (lens : nat -> nat) (prior : vec) (vocabPrior : R).

  Lemma svb_docs_keep batchSize st docs : forall x, (0 < batchSize)%Z -> s_count x = 0 ->
    let y := fold_left (svb_doc psi low K T D W lens prior batchSize st) docs x in
    s_count y = 0 /\ v_vocab (s_arrays y) = v_vocab (s_arrays x).
  Proof.
    induction docs as [|d docs IH]; intros x Hb Hx; [split; [exact Hx|reflexivity]|]. cbv zeta. cbn [fold_left].
    assert (E : s_count (svb_doc psi low K T D W lens prior batchSize st x d) = 0 /\ v_vocab (s_arrays (svb_doc psi low K T D W lens prior batchSize st x d)) = v_vocab (s_arrays x)).
    { unfold svb_doc. destruct (infer_topics _ _ _ _ _ _ _ _ _ _ _) as [[i td] z]. destruct (Z.ltb_spec 0 batchSize); [|lia]. rewrite Hx.
      destruct (Z.leb_spec batchSize (Z.of_nat (0 + 0))); [cbn in *; lia|]. split; reflexivity. }
    destruct (IH (svb_doc psi low K T D W lens prior batchSize st x d) Hb (proj1 E)) as [A B]. split; [exact A|]. rewrite B. apply E.
  Qed.
  (** With batches, no iteration changes the vocabulary. *)
  Theorem C151_batches_never_learn n batchSize step a : (0 < batchSize)%Z ->
    v_vocab (iterate_f64 psi low K T D W lens prior vocabPrior n batchSize step a) = v_vocab a.
  Proof.
    intros Hb. unfold iterate_f64.
    assert (G : forall l ac, snd ac = 0 -> let r := fold_left (svb_iteration psi low K T D W lens prior vocabPrior batchSize step) l ac in
      snd r = 0 /\ v_vocab (fst r) = v_vocab (fst ac)).
    { induction l as [|i l IH]; intros [a0 c] Hc; [split; [exact Hc|reflexivity]|]. cbv zeta. cbn [fold_left fst snd] in *. subst c.
      unfold svb_iteration at 2 4. 
      match goal with |- context [fold_left (svb_doc psi low K T D W lens prior batchSize (step i)) (seq 0 D) ?x] =>
        destruct (svb_docs_keep batchSize (step i) (seq 0 D) x Hb eq_refl) as [A B]; set (y := fold_left (svb_doc psi low K T D W lens prior batchSize (step i)) (seq 0 D) x) in * end.
      destruct (IH (s_arrays y, s_count y) A) as [A' B']. split; [exact A'|]. rewrite B'. exact B. }
    apply (G (seq 0 n) (a, 0) eq_refl).
  Qed.
  (** Nor does training: it returns the vocabulary that it was given, normalised. *)
  Theorem C151_training_returns_initial_vocabulary batchSize step iterations logFrequency stop s r : (0 < batchSize)%Z ->
    (forall k, k < K -> vsum T (v_vocab s k) <> 0%R) ->
    train psi low K T D W lens prior vocabPrior true true batchSize step iterations logFrequency stop s = Ok r ->
    forall k t, k < K -> v_vocab r k t = (v_vocab s k t / vsum T (v_vocab s k))%R.
  Proof.
    intros Hb HV H. unfold train in H. destruct (existsb _ _); [discriminate|]. cbv zeta in H. destruct (_ <? 0)%Z; [discriminate|]. destruct (D =? 0); [discriminate|].
    destruct (train_loop _ _ _ _ _ _) as [[r' b]|e] eqn:E; [|discriminate]. cbn [bind snd fst] in H. destruct b; [|discriminate]. apply ok_inj in H. subst r'.
    revert s HV E. generalize (seq 0 (Z.to_nat (log_points iterations logFrequency - 1))) as segs.
    induction segs as [|j segs IH]; intros s HV E k t Hk; [discriminate|].
    cbn [train_loop] in E. cbn [iterate_arity negb Nat.eqb bind] in E.
    set (s1 := iterate_f64 psi low K T D W lens prior vocabPrior (Z.to_nat logFrequency) batchSize (step (j * Z.to_nat logFrequency)) s) in *.
    assert (E1 : v_vocab s1 = v_vocab s) by (apply C151_batches_never_learn; exact Hb).
    assert (EL : forall k t, v_vocab (look K T s1) k t = (v_vocab s k t / vsum T (v_vocab s k))%R) by (intros; unfold look, topic_dists, word_dists, norm_rows; cbn [v_vocab]; rewrite E1; reflexivity).
    assert (EN : forall k, k < K -> vsum T (v_vocab (look K T s1) k) = 1%R).
    { intros k' Hk'. rewrite (vsum_ext T _ (fun t => v_vocab s k' t * / vsum T (v_vocab s k'))%R (fun t _ => EL k' t)), vsum_scale_r. apply Rinv_r, HV, Hk'. }
    destruct (stop j).
    - injection E as <-. apply EL.
    - rewrite (IH (look K T s1)); [|intros k' Hk'; rewrite EN by exact Hk'; lra|exact E|exact Hk]. rewrite EN by exact Hk. rewrite EL. field. apply HV, Hk.
  Qed.

  (** Without batches the iterations are those of plain training. *)
  Lemma svb_docs_plain st docs : (forall d, In d docs -> d <> D - 1) -> forall top V z dv ds U c,
    exists c', fold_left (svb_doc psi low K T D W lens prior 0 st) docs (mkSt (mkV top V z) dv ds U c)
    = let x := fold_left (iter_doc psi low K D W lens prior dv ds) docs (mkV top U z) in mkSt (mkV (v_topics x) V (v_z x)) dv ds (v_vocab x) c'.
  Proof.
    induction docs as [|d docs IH]; intros Hd top V z dv ds U c; [exists c; reflexivity|]. cbv zeta. cbn [fold_left]. unfold svb_doc at 2, iter_doc at 2 4 6.
    cbn [s_arrays s_diV s_diS s_updates s_count v_topics v_vocab v_z].
    destruct (infer_topics psi low K D W lens prior dv ds d z) as [[i td] z1]. cbn [Z.ltb Z.compare].
    destruct (Nat.eqb_spec d (D - 1)) as [E|_]; [exfalso; apply (Hd d); [left; reflexivity|exact E]|].
    apply IH. intros d' Hd'. apply Hd. right. exact Hd'.
  Qed.
  Lemma svb_iteration_plain step a c itr : 0 < D -> exists c',
    svb_iteration psi low K T D W lens prior vocabPrior 0 step (a, c) itr = (iterate1 psi low K T D W lens prior vocabPrior a, c').
  Proof.
    intros HD. unfold svb_iteration, iterate1. cbn [Z.eqb].
    assert (seq 0 D = seq 0 (D - 1) ++ [D - 1]) as ->. { replace D with (S (D - 1)) at 1 by lia. rewrite seq_S. reflexivity. }
    rewrite !fold_left_app. destruct a as [top V z].
    destruct (svb_docs_plain (step itr) (seq 0 (D - 1)) ltac:(intros d Hd; apply in_seq in Hd; lia) top V z (di_vocab psi V) (di_sums psi T V) (fun _ _ => vocabPrior) c) as (c1 & E).
    cbn [v_topics v_vocab v_z]. rewrite E. cbv zeta. set (x := fold_left (iter_doc psi low K D W lens prior (di_vocab psi V) (di_sums psi T V)) (seq 0 (D - 1)) _).
    cbn [fold_left]. unfold svb_doc, iter_doc. cbn [s_arrays s_diV s_diS s_updates s_count v_topics v_vocab v_z].
    destruct (infer_topics psi low K D W lens prior (di_vocab psi V) (di_sums psi T V) (D - 1) (v_z x)) as [[i td] z1]. cbn [Z.ltb Z.compare]. rewrite Nat.eqb_refl.
    eexists. reflexivity.
  Qed.
  Theorem C151_no_batches_is_plain n step a : 0 < D ->
    iterate_f64 psi low K T D W lens prior vocabPrior n 0 step a = iterate_f32 psi low K T D W lens prior vocabPrior n a.
  Proof.
    intros HD. unfold iterate_f64, iterate_f32.
    assert (G : forall n, exists c, fold_left (svb_iteration psi low K T D W lens prior vocabPrior 0 step) (seq 0 n) (a, 0) = (Nat.iter n (iterate1 psi low K T D W lens prior vocabPrior) a, c)).
    { clear n. induction n as [|n [c IH]]; [exists 0; reflexivity|]. rewrite seq_S, fold_left_app, IH. cbn [fold_left Nat.add]. rewrite iterS. apply svb_iteration_plain, HD. }
    destruct (G n) as [c ->]. reflexivity.
  Qed.
End Stochastic.

(** Two corpora without a common word: what is learnt from them in batches is the same. *)
Theorem C151_stochastic_training_learns_refuted psi low (step : nat -> nat -> R) :
  exists (K T D : nat) W1 W2 lens prior vocabPrior s r1 r2,
    0 < K /\ 0 < D /\ (forall k, k < K -> (0 < prior k)%R) /\ (0 < vocabPrior)%R /\ (forall k t, (0 < v_vocab s k t)%R) /\
    (forall d n, n < lens d -> W1 d n < T /\ W2 d n < T) /\
    (forall d d' n n', d < D -> d' < D -> n < lens d -> n' < lens d' -> W1 d n <> W2 d' n') /\
    train psi low K T D W1 lens prior vocabPrior true true 1 step 200 10 (fun j => 3 <=? j) s = Ok r1 /\
    train psi low K T D W2 lens prior vocabPrior true true 1 step 200 10 (fun j => 3 <=? j) s = Ok r2 /\
    (forall k t, k < K -> v_vocab r1 k t = v_vocab r2 k t).
Proof.
  set (s := mkV flat V12 flat).
  assert (X : forall W, exists r, train psi low 2 2 3 W one_token prior1 1 true true 1 step 200 10 (fun j => 3 <=? j) s = Ok r) by (intros W; eexists; reflexivity).
  destruct (X w0) as [r1 E1]. destruct (X (fun _ _ => 1)) as [r2 E2]. clear X.
  exists 2, 2, 3, w0, (fun _ _ => 1), one_token, prior1, 1%R, s, r1, r2.
  split; [lia|]. split; [lia|]. split; [intros; unfold prior1; lra|]. split; [lra|]. split; [intros k t; unfold s, V12; cbn; destruct (k =? 0); lra|].
  split; [intros; unfold w0; lia|]. split; [intros; unfold w0; lia|]. split; [exact E1|]. split; [exact E2|].
  assert (HV : forall k, k < 2 -> vsum 2 (v_vocab s k) <> 0%R) by (intros k Hk; rewrite vsum2; unfold s, V12; cbn [v_vocab]; destruct (k =? 0); lra).
  intros k t Hk. rewrite (C151_training_returns_initial_vocabulary psi low 2 2 3 w0 one_token prior1 1 1 step 200 10 _ s r1 ltac:(lia) HV E1 k t Hk).
  rewrite (C151_training_returns_initial_vocabulary psi low 2 2 3 _ one_token prior1 1 1 step 200 10 _ s r2 ltac:(lia) HV E2 k t Hk). reflexivity.
Qed.

(** ** C152 *)
Lemma bound_doc_ext psi K T W lens maxN topics vocab d z z' : lens d <= maxN -> (forall n, n < maxN -> z n = z' n) ->
  bound_doc psi K T W lens maxN topics vocab d z = bound_doc psi K T W lens maxN topics vocab d z'.
Proof.
  intros Hl H. unfold bound_doc. cbv zeta. f_equal; [f_equal|]; apply rsum_ext; intros n Hn; apply in_seq in Hn; rewrite H by lia; reflexivity.
Qed.
(** The bound is determined when all the documents have the same length. *)
Theorem C152_bound_determined_equal_lengths psi K T D W lens others maxN s z z' :
  (forall d, d < D -> lens d = maxN) ->
  var_bound psi K T D W lens others maxN s z = var_bound psi K T D W lens others maxN s z'.
Proof.
  intros Hl. unfold var_bound. f_equal. unfold bound_of_tokens. set (vocab := norm_rows T (v_vocab s)).
  assert (G : forall l b z z', (forall d, In d l -> lens d = maxN) ->
    fst (fold_left (fun bz d => let z' := bound_rows psi K W lens (v_topics s) vocab d (snd bz) in (fst bz + bound_doc psi K T W lens maxN (v_topics s) vocab d z', z')%R) l (b, z))
    = fst (fold_left (fun bz d => let z' := bound_rows psi K W lens (v_topics s) vocab d (snd bz) in (fst bz + bound_doc psi K T W lens maxN (v_topics s) vocab d z', z')%R) l (b, z'))).
  { clear z z'. induction l as [|d l IH]; intros b z z' H; [reflexivity|]. cbn [fold_left fst snd].
    rewrite (bound_doc_ext psi K T W lens maxN (v_topics s) vocab d (bound_rows psi K W lens (v_topics s) vocab d z) (bound_rows psi K W lens (v_topics s) vocab d z')).
    - apply IH. intros; apply H; right; assumption.
    - rewrite H by (left; reflexivity). lia.
    - intros n Hn. unfold bound_rows. rewrite H by (left; reflexivity). destruct (Nat.ltb_spec n maxN); [reflexivity|lia]. }
  apply G. intros d Hd. apply in_seq in Hd. apply Hl. lia.
Qed.
Definition len12 (d : nat) : nat := if d =? 0 then 1 else 2.
(** Otherwise it depends on what was in the memory. *)
Theorem C152_bound_determined_refuted psi others : digamma_like psi ->
  exists (K T D : nat) W lens maxN s z z',
    (forall d, d < D -> 1 <= lens d <= maxN) /\ (forall d n, n < lens d -> W d n < T) /\
    (forall k t, (0 < v_vocab s k t)%R) /\ (forall d k, (0 < v_topics s d k)%R) /\
    var_bound psi K T D W lens others maxN s z <> var_bound psi K T D W lens others maxN s z'.
Proof.
  intros Hpsi. exists 2, 1, 2, w0, len12, 2, (mkV (fun _ k => V12 k 0) flat flat), (fun _ _ => 0%R), (fun _ k => if k =? 0 then ln 3 else 0%R).
  split; [intros [|[|d]] Hd; unfold len12; cbn; lia|]. split; [intros; unfold w0; lia|]. split; [intros; unfold flat; cbn; lra|].
  split; [intros d k; unfold V12; cbn; destruct (k =? 0); lra|].
  unfold var_bound. intros E. apply Rplus_eq_reg_l in E. revert E. unfold bound_of_tokens. cbn [seq fold_left fst snd v_topics v_vocab].
  set (vocab := norm_rows 1 flat). set (top := fun _ k : nat => V12 k 0).
  set (R0 := bound_rows psi 2 w0 len12 top vocab 0).
  set (z := fun _ _ : nat => 0%R). set (z' := fun _ k : nat => if k =? 0 then ln 3 else 0%R).
  rewrite (bound_doc_ext psi 2 1 w0 len12 2 top vocab 1 (bound_rows psi 2 w0 len12 top vocab 1 (R0 z)) (bound_rows psi 2 w0 len12 top vocab 1 (R0 z'))).
  2:{ cbn. lia. }
  2:{ intros n Hn. unfold bound_rows. change (len12 1) with 2. destruct (Nat.ltb_spec n 2); [reflexivity|lia]. }
  intros E. apply Rplus_eq_reg_r in E. unfold bound_doc in E. cbv zeta in E. change (len12 0) with 1 in E. cbn [seq map rsum] in E.
  assert (E0 : R0 z 0 = R0 z' 0) by reflexivity. rewrite E0 in E.
  assert (P0 : R0 z 1 0 = (1 / 2)%R).
  { unfold R0, bound_rows. change (1 <? len12 0) with false. unfold softmax_vec, z. cbn [seq map rsum]. rewrite exp_0. field. }
  assert (P1 : R0 z 1 1 = (1 / 2)%R).
  { unfold R0, bound_rows. change (1 <? len12 0) with false. unfold softmax_vec, z. cbn [seq map rsum]. rewrite exp_0. field. }
  assert (Q0 : R0 z' 1 0 = (3 / 4)%R).
  { unfold R0, bound_rows. change (1 <? len12 0) with false. unfold softmax_vec, z'. cbn [seq map rsum Nat.eqb]. rewrite exp_0, exp_ln by lra. field. }
  assert (Q1 : R0 z' 1 1 = (1 / 4)%R).
  { unfold R0, bound_rows. change (1 <? len12 0) with false. unfold softmax_vec, z'. cbn [seq map rsum Nat.eqb]. rewrite exp_0, exp_ln by lra. field. }
  rewrite P0, P1, Q0, Q1 in E. unfold top, V12 in E. cbn [Nat.eqb] in E. 
  pose proof (proj2 Hpsi 1%R ltac:(lra)) as H1. rewrite Rinv_1 in H1. replace (1 + 1)%R with 2%R in H1 by ring.
  set (c := psi (vsum 2 (fun k => if k =? 0 then 1 else 2)%R)) in E.
  lra.
Qed.

(** ** Examples *)
(** The hypothesis about the digamma function is met. *)
Example digamma_exists : digamma_like psi_witness.
Proof. split; [exact psi_witness_increasing|exact psi_witness_recurrence]. Qed.

(** Two documents, [0;1;0] and [2;1], three words, two topics. *)
Definition Wx (d n : nat) : nat := nth n (nth d [[0; 1; 0]; [2; 1]] []) 0.
Definition lensx (d : nat) : nat := length (nth d [[0; 1; 0]; [2; 1]] []).
(** The first document reordered, and another second one. *)
Definition Wy (d n : nat) : nat := nth n (nth d [[0; 0; 1]; [2; 2]] []) 0.
Definition sx : vst := mkV flat V12 flat.

Example C144_three_passes_ex : exists td z',
  infer_topics psi_witness (-1) 2 2 Wx lensx prior1 (di_vocab psi_witness V12) (di_sums psi_witness 3 V12) 0 flat = (3, td, z') /\
  td 0 = (prior1 0 + INR 2 / INR 2 + rsum (map (fun t => share 2 (fun j => word_score psi_witness 3 V12 j t + psi_witness (prior1 j + INR 2 / INR 2)) 0%nat) [0; 1; 0]%nat))%R.
Proof.
  destruct (C144_three_passes_one_step psi_witness (-1) 2 3 2 Wx lensx prior1 ltac:(lia) (prior_big 2) V12 0 flat) as (td & z' & E & H).
  exists td, z'. split; [exact E|]. exact (H 0 ltac:(lia)).
Qed.
(** With equal topics the equations hold. *)
Example C144_fixed_point_ex itrs td z' :
  infer_topics psi_witness (-1) 2 2 Wx lensx prior1 (di_vocab psi_witness flat) (di_sums psi_witness 3 flat) 0 flat = (itrs, td, z') ->
  mean_field psi_witness 2 3 flat (fun k => prior1 k + INR 2 / INR 2)%R [0; 1; 0] td.
Proof.
  intros E. apply (C144_fixed_point_iff psi_witness (-1) 2 3 2 Wx lensx prior1 ltac:(lia) (prior_big 2) flat 0 flat itrs td z' E). right.
  destruct (C144_three_passes_one_step psi_witness (-1) 2 3 2 Wx lensx prior1 ltac:(lia) (prior_big 2) flat 0 flat) as (td1 & z1 & E1 & H).
  rewrite E in E1. injection E1 as -> -> ->. intros i j Hi Hj. rewrite !H by assumption. reflexivity.
Qed.
Example C144_inference_reaches_fixed_point_ex := C144_inference_reaches_fixed_point_refuted psi_witness 0 digamma_exists.
Example C145_topics_ex r r' :
  query psi_witness 0 2 3 2 Wx lensx prior1 true 1 sx = Ok r -> query psi_witness 0 2 3 2 Wy lensx prior1 true 7 sx = Ok r' ->
  v_topics r' 0 1 = v_topics r 0 1.
Proof.
  intros H H'. refine (C145_topics_of_a_document psi_witness 0 2 3 2 Wx lensx prior1 ltac:(lia) (prior_big 2) Wy lensx 0 true 1 7 sx sx r r' 0 0 _ _ _ _ _ _ _ H H' 1 _); try lia; [reflexivity|].
  cbn. apply perm_skip, perm_swap.
Qed.
Example C145_training_ex : v_topics (iterate_f32 psi_witness 0 2 3 2 Wy lensx prior1 1 1 sx) 0 1 = v_topics (iterate_f32 psi_witness 0 2 3 2 Wx lensx prior1 1 1 sx) 0 1.
Proof.
  refine (C145_topics_in_training psi_witness 0 2 3 2 Wx lensx prior1 ltac:(lia) (prior_big 2) Wy lensx 0 1%R sx sx 0 0 _ _ _ _ 1 _); try lia; [reflexivity|].
  cbn. apply perm_skip, perm_swap.
Qed.
Example C145_independent_ex := C145_independent_of_number_of_documents_refuted psi_witness 0 digamma_exists.
(** Three tokens and priors of 2 make 7, as there are two documents. *)
Example C146_total_ex r : query psi_witness 0 2 3 2 Wx lensx prior1 true 1 sx = Ok r -> vsum 2 (v_topics r 0) = 7%R.
Proof.
  intros H. pose proof (C146_total_has_number_of_documents psi_witness 0 2 3 2 Wx lensx prior1 ltac:(lia) (prior_big 2) true 1 sx r 0 ltac:(lia) ltac:(lia) ltac:(lia) H) as [E _].
  rewrite E, vsum2. unfold prior1, lensx. cbn. lra.
Qed.
Example C146_token_ex itrs td z' :
  infer_topics psi_witness 0 2 2 Wx lensx prior1 (di_vocab psi_witness V12) (di_sums psi_witness 3 V12) 1 flat = (itrs, td, z') -> vsum 2 (z' 1) = 1%R.
Proof. intros E. refine (proj2 (C146_token_distributions psi_witness 0 2 3 2 Wx lensx prior1 ltac:(lia) (prior_big 2) V12 1 flat itrs td z' E 1 _)). cbn. lia. Qed.
Example C146_total_counts_ex := C146_total_counts_refuted psi_witness 0 digamma_exists.
(** The second word occurs twice. *)
Example C147_word_ex : vsum 2 (fun k => v_vocab (iterate_f32 psi_witness 0 2 3 2 Wx lensx prior1 (/ 10) 4 sx) k 1) = (2 * / 10 + 2)%R.
Proof.
  rewrite (C147_word_counts psi_witness 0 2 3 2 Wx lensx prior1 ltac:(lia) (prior_big 2) (/ 10)%R 4 sx ltac:(lia) 1).
  rewrite vsum2. unfold over_words, doc_words. cbn. lra.
Qed.
Example C147_prior_ex : (/ 10 <= v_vocab (iterate_f32 psi_witness 0 2 3 2 Wx lensx prior1 (/ 10) 4 sx) 1%nat 2%nat)%R.
Proof. apply (C147_at_least_prior psi_witness 0 2 3 2 Wx lensx prior1 ltac:(lia) (prior_big 2)); lia. Qed.
Example C147_topic_ex : (let r := iterate_f32 psi_witness 0 2 3 2 Wx lensx prior1 (/ 10) 4 sx in
  vsum 3 (v_vocab r 1%nat) - INR 3 * / 10 = vsum 2 (fun d => v_topics r d 1%nat - prior1 1%nat - INR 2 / INR 2))%R.
Proof.
  apply (C147_topic_counts psi_witness 0 2 3 2 Wx lensx prior1 ltac:(lia) (prior_big 2) (/ 10)%R 4 sx 1); [lia|lia|].
  intros [|[|d]] n Hd Hn; [|cbn in Hn |lia]; destruct n as [|[|[|n]]]; cbn in *; lia.
Qed.
Example C148_looking_ex := C148_looking_leaves_queries_refuted psi_witness 0 digamma_exists.
Example C148_normalised_ex : v_vocab (look 2 2 (mkV V12 (norm_rows 2 V12) flat)) 1 0 = (1 / 2)%R.
Proof.
  rewrite C148_look_normalised; [|intros k Hk; rewrite vsum2; unfold norm_rows; cbn [v_vocab]; rewrite vsum2; unfold V12; destruct (k =? 0); field|lia].
  unfold norm_rows. cbn [v_vocab]. rewrite vsum2. unfold V12. cbn. field.
Qed.
Example C148_distributions_ex : vsum 2 (v_vocab (look 2 2 sx) 1) = 1%R.
Proof.
  apply (C148_look_gives_distributions 2 2 2 sx); [| |lia]; intros i Hi; rewrite vsum2; unfold sx, V12, flat; cbn [v_vocab v_topics]; destruct (i =? 0); lra.
Qed.
(** Five iterations, logged every second one: two, a look, and three. *)
Example C149_alternates_ex : train psi_witness 0 2 3 2 Wx lensx prior1 1 false false 0 (fun _ _ => 0%R) 5 2 (fun _ => false) sx
  = Ok (look 2 3 (iterate_f32 psi_witness 0 2 3 2 Wx lensx prior1 1 3 (look 2 3 (iterate_f32 psi_witness 0 2 3 2 Wx lensx prior1 1 2 sx)))).
Proof. rewrite C149_training_alternates; [reflexivity|lia|intros [|[|d]] Hd; cbn; lia|lia]. Qed.
Example C149_single_ex : train psi_witness 0 2 3 2 Wx lensx prior1 1 false false 0 (fun _ _ => 0%R) 5 3 (fun _ => false) sx
  = train psi_witness 0 2 3 2 Wx lensx prior1 1 false false 0 (fun _ _ => 0%R) 5 4 (fun _ => false) sx.
Proof. rewrite !C149_single_segment by (lia || reflexivity || (intros [|[|d]] Hd; cbn; lia)). reflexivity. Qed.
Example C149_logging_ex := C149_logging_no_influence_refuted psi_witness 0 0 (fun _ _ => 0%R) digamma_exists.
(** Stochastic training in double precision that stops at the third segment. *)
Example C150_double_ex : exists r, train psi_witness 0 2 3 2 Wx lensx prior1 1 true true 0 (fun _ _ => 0%R) 100 10 (fun j => j =? 2) sx = Ok r.
Proof. eexists. reflexivity. Qed.
Example C150_single_ex r : train psi_witness 0 2 3 2 Wx lensx prior1 1 false false 0 (fun _ _ => 0%R) 5 2 (fun _ => false) sx = Ok r ->
  query psi_witness 0 2 3 2 Wy lensx prior1 false 10 r = Raise ValueError.
Proof. intros H. apply (C150_trained_model_cannot_be_queried _ _ _ _ _ _ _ _ _ _ _ _ _ _ _ _ _ _ (fun _ => eq_refl) H); lia. Qed.
Example C151_batches_ex : v_vocab (iterate_f64 psi_witness 0 2 3 2 Wx lensx prior1 1 30 2 (fun _ => / 2)%R sx) = V12.
Proof. rewrite C151_batches_never_learn by lia. reflexivity. Qed.
Example C151_training_ex r : train psi_witness 0 2 3 2 Wx lensx prior1 1 true true 2 (fun _ _ => / 2)%R 100 10 (fun j => j =? 2) sx = Ok r -> v_vocab r 1 0 = (1 / 3)%R.
Proof.
  intros H. rewrite (C151_training_returns_initial_vocabulary psi_witness 0 2 3 2 Wx lensx prior1 1 2 (fun _ _ => / 2)%R 100 10 _ sx r ltac:(lia)) by
    (try exact H; try lia; intros k Hk; unfold vsum, sx, V12; cbn [seq map rsum v_vocab]; destruct (k =? 0); lra).
  unfold vsum, sx, V12. cbn [seq map rsum v_vocab Nat.eqb]. field.
Qed.
Example C151_plain_ex : iterate_f64 psi_witness 0 2 3 2 Wx lensx prior1 1 3 0 (fun _ => / 2)%R sx = iterate_f32 psi_witness 0 2 3 2 Wx lensx prior1 1 3 sx.
Proof. apply C151_no_batches_is_plain. lia. Qed.
Example C152_equal_ex others z z' : var_bound psi_witness 2 3 2 Wx (fun _ => 2) others 2 sx z = var_bound psi_witness 2 3 2 Wx (fun _ => 2) others 2 sx z'.
Proof. apply C152_bound_determined_equal_lengths. reflexivity. Qed.
Example C152_bound_ex := C152_bound_determined_refuted psi_witness (fun _ _ => 0%R) digamma_exists.

(** The scores are moved below zero before they are exponentiated, so none of the weights
    of a token exceeds one, however large the scores. *)
Theorem C146_weights_cannot_overflow low (l : list R) : forall x, In x l -> (exp (x - scan_high low l) <= 1)%R.
Proof.
  assert (G : forall l m, (m <= fold_left (fun m x => if rltb m x then x else m) l m)%R /\
    forall x, In x l -> (x <= fold_left (fun m x => if rltb m x then x else m) l m)%R).
  { clear l. induction l as [|y l IH]; intros m; cbn [fold_left]; [split; [lra|intros x []]|].
    assert (M : (m <= (if rltb m y then y else m))%R /\ (y <= (if rltb m y then y else m))%R).
    { unfold rltb. destruct (Rlt_dec m y); lra. }
    destruct (IH (if rltb m y then y else m)) as [H1 H2]. split; [lra|]. intros x [->|Hx]; [lra|apply H2; exact Hx]. }
  intros x Hx. rewrite <- exp_0. destruct (G l low) as [_ H]. specialize (H x Hx). fold (scan_high low l) in H.
  destruct (Rle_lt_or_eq_dec _ _ H) as [Hl|He]; [left; apply exp_increasing; lra|right; f_equal; lra].
Qed.
Example C146_overflow_ex : (exp (1000 - scan_high (-1) [3; 1000]) <= 1)%R.
Proof. apply C146_weights_cannot_overflow. right; left; reflexivity. Qed.

Print Assumptions C144_three_passes_one_step.
Print Assumptions C144_fixed_point_iff.
Print Assumptions C145_topics_of_a_document.
Print Assumptions C145_topics_in_training.
Print Assumptions C146_total_has_number_of_documents.
Print Assumptions C146_token_distributions.
Print Assumptions C147_word_counts.
Print Assumptions C147_at_least_prior.
Print Assumptions C147_topic_counts.
Print Assumptions C144_inference_reaches_fixed_point_refuted.
Print Assumptions C145_independent_of_number_of_documents_refuted.
Print Assumptions C146_total_counts_refuted.
Print Assumptions C148_looking_leaves_queries_refuted.
Print Assumptions C148_look_normalised.
Print Assumptions C148_look_gives_distributions.
Print Assumptions C149_training_alternates.
Print Assumptions C149_logging_no_influence_refuted.
Print Assumptions C150_double_precision_training.
Print Assumptions C150_trained_model_cannot_be_queried.
Print Assumptions C150_train_then_query_refuted.
Print Assumptions C151_batches_never_learn.
Print Assumptions C151_training_returns_initial_vocabulary.
Print Assumptions C151_no_batches_is_plain.
Print Assumptions C151_stochastic_training_learns_refuted.
Print Assumptions C152_bound_determined_equal_lengths.
Print Assumptions C152_bound_determined_refuted.
Print Assumptions C146_weights_cannot_overflow.
