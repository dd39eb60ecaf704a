From Coq Require Import List ZArith QArith Qfield Arith Bool Lia Lqa Permutation.
From Verif Require Import Base EvalSpec EvalProofs CvbModel CvbProofs CvbMore GibbsModel GibbsSpec GibbsProofs GibbsMore GibbsRuns.
Import ListNotations.
Open Scope nat_scope.

Lemma qsum_divr {A} (f : A -> Q) (c : Q) l : (qsum (fun x => f x / c) l == qsum f l / c)%Q.
Proof.
  unfold Qdiv. rewrite (qsum_ext _ (fun x => / c * f x)%Q) by (intros; ring). rewrite qsum_scale. ring.
Qed.
Lemma div_nonneg x y : (0 <= x)%Q -> (0 < y)%Q -> (0 <= x / y)%Q.
Proof. intros. apply Qle_shift_div_l; [assumption|]. rewrite Qmult_0_l. assumption. Qed.

Lemma sum_injZ {A} (f : A -> Z) l : (qsum (fun x => inject_Z (f x)) l == inject_Z (sumZ (map f l)))%Q.
Proof.
  induction l as [|x l IH]; [reflexivity|]. rewrite qsum_cons, IH. cbn [map sumZ]. rewrite inject_Z_plus. reflexivity.
Qed.

(** A recorded sample of the topics of a document is a distribution. *)
Lemma sample_topic_dist K w lens isQuery bkv bk a s d :
  counts_ok K w lens isQuery bkv bk s -> 0 < K -> (forall k, k < K -> (0 < a k)%Q) -> d < length lens ->
  distribution K (fun k => sample_topic K lens a s d k).
Proof.
  intros (H1 & H2 & _) HK Ha Hd. unfold sample_topic.
  assert (P : (0 < qnat (len_ lens d) + qsum a (seq 0 K))%Q).
  { pose proof (qnat_nonneg (len_ lens d)). pose proof (qsum_pos_all a K HK Ha). lra. }
  split.
  - intros k Hk. apply div_nonneg; [|exact P]. rewrite (H2 d k Hd). pose proof (Ha k Hk).
    pose proof (injZ_nonneg _ (count_nonneg (fun n => g_z s n =? k) (doc_tokens lens d))). unfold doc_topic. lra.
  - rewrite (qsum_divr (fun k => (inject_Z (g_dk s d k) + a k)%Q)), qsum_plus.
    rewrite (qsum_ext (fun k => inject_Z (g_dk s d k)) (fun k => inject_Z (doc_topic lens (g_z s) d k)))
      by (intros k _; rewrite (H2 d k Hd); reflexivity).
    rewrite (sum_doc K lens (g_z s) d H1 Hd). field. lra.
Qed.

Lemma sample_vocab_dist K T w lens b s k :
  counts_ok K w lens false (fun _ _ => 0%Z) (fun _ => 0%Z) s -> 0 < T -> (forall v, v < T -> (0 < b v)%Q) ->
  (forall n, n < total lens -> w n < T) ->
  distribution T (fun v => sample_vocab T b s k v).
Proof.
  intros (H1 & H2 & H3 & H4) HT Hb Hw. unfold sample_vocab.
  assert (P : (0 < inject_Z (g_k s k) + qsum b (seq 0 T))%Q).
  { rewrite H4. pose proof (injZ_nonneg _ (count_nonneg (fun n => g_z s n =? k) (seq 0 (total lens)))).
    pose proof (qsum_pos_all b T HT Hb). cbn [Z.add]. unfold topic_all. lra. }
  split.
  - intros v Hv. apply div_nonneg; [|exact P]. rewrite H3. pose proof (Hb v Hv). cbn [Z.add].
    pose proof (injZ_nonneg _ (count_nonneg (fun n => (g_z s n =? k) && (w n =? v)) (seq 0 (total lens)))).
    unfold topic_word. lra.
  - rewrite (qsum_divr (fun v => (inject_Z (g_kv s k v) + b v)%Q)), qsum_plus.
    rewrite (qsum_ext (fun v => inject_Z (g_kv s k v)) (fun v => inject_Z (topic_word w lens (g_z s) k v)))
      by (intros v _; rewrite H3; reflexivity).
    rewrite (sum_words (g_z s) w T lens k Hw), H4. cbn [Z.add]. rewrite H4 in P. cbn [Z.add] in P. field. lra.
Qed.

(** An average of distributions is one. *)
Lemma average_dist {A} (N : nat) (f : A -> nat -> Q) (l : list A) (sums : nat -> Q) :
  length l <> 0 -> (forall s, In s l -> distribution N (f s)) ->
  (forall i, (sums i == qsum (fun s => f s i) l)%Q) ->
  distribution N (fun i => sums i / qnat (length l))%Q.
Proof.
  intros Hl Hd Hs. assert (P : (0 < qnat (length l))%Q) by (apply qnat_pos; lia). split.
  - intros i Hi. apply div_nonneg; [|exact P]. rewrite Hs. apply qsum_nonneg. intros s Hin. apply Hd; assumption.
  - rewrite qsum_divr, (qsum_ext _ (fun i => qsum (fun s => f s i) l)) by (intros; apply Hs).
    rewrite qsum_swap', (qsum_ext _ (fun _ => 1%Q)) by (intros s Hin; apply Hd; assumption).
    rewrite qsum_const. field. lra.
Qed.

(** ** Truncation *)
Lemma truncQ_bounds q : (0 <= q)%Q -> (0 <= truncQ q)%Z /\ (inject_Z (truncQ q) <= q)%Q /\ (q - 1 < inject_Z (truncQ q))%Q.
Proof.
  destruct q as [n d]. intros H. unfold Qle in H. cbn in H. unfold truncQ. cbn [Qnum Qden].
  rewrite Z.quot_div_nonneg by lia.
  pose proof (Z.div_mod n (Zpos d) ltac:(lia)). pose proof (Z.mod_pos_bound n (Zpos d) ltac:(lia)).
  split; [apply Z.div_pos; lia|]. unfold Qle, Qlt, Qminus, Qplus, Qopp, inject_Z. cbn [Qnum Qden].
  split; nia.
Qed.

Lemma query_proper K T w lens a z (wd : nat -> nat -> Q) :
  (forall k, k < K -> (0 < a k)%Q) -> (forall k, k < K -> distribution T (wd k)) ->
  (Z.of_nat T <= 1000000)%Z -> (forall n, n < total lens -> w n < T) -> assigned lens K z ->
  proper K T w lens (fun k v => (truncQ (wd k v * 1000000) + topic_word w lens z k v)%Z)
    (fun k => (sumZ (map (fun v => truncQ (wd k v * 1000000)%Q) (seq 0 T)) + topic_all lens z k)%Z)
    a (fun _ => 0%Q).
Proof.
  intros Ha Hwd HT Hw Hz.
  assert (Ht : forall k v, k < K -> v < T -> (0 <= wd k v * 1000000)%Q) by (intros; apply Qmult_le_0_compat; [apply Hwd; assumption|lra]).
  assert (Hb : (qsum (fun _ : nat => 0%Q) (seq 0 T) == 0)%Q) by (apply qsum_zero; intros; reflexivity).
  assert (C : forall k v, (0 <= topic_word w lens z k v)%Z) by (intros; apply count_nonneg).
  assert (C' : forall k, (0 <= topic_all lens z k)%Z) by (intros; apply count_nonneg).
  split; [exact Ha|]. split; [intros; apply Qle_refl|]. split; [|split].
  - intros j n Hj Hn. destruct (truncQ_bounds _ (Ht j (w n) Hj (Hw n Hn))) as (G & _). specialize (C j (w n)). lia.
  - intros j Hj.
    assert (P : (0 < sumZ (map (fun v => truncQ (wd j v * 1000000)%Q) (seq 0 T)))%Z).
    { rewrite Zlt_Qlt. change (inject_Z 0) with 0%Q. rewrite <- sum_injZ.
      destruct (Hwd j Hj) as (_ & S1).
      destruct T as [|T']; [cbn in S1; discriminate|].
      apply Qle_lt_trans with (qsum (fun v => wd j v * 1000000 + - 1) (seq 0 (S T')))%Q.
      - rewrite qsum_plus, qsum_const, seq_length.
        rewrite (qsum_ext _ (fun v => 1000000 * wd j v)%Q) by (intros; ring). rewrite qsum_scale, S1.
        assert (qnat (S T') <= 1000000)%Q; [|lra].
        change 1000000%Q with (inject_Z 1000000). unfold qnat. rewrite <- Zle_Qle. exact HT.
      - rewrite !seq_cons, !qsum_cons.
        pose proof (truncQ_bounds _ (Ht j 0 Hj ltac:(lia))) as (_ & _ & L0).
        assert (qsum (fun v => wd j v * 1000000 + - 1) (seq 1 T') <= qsum (fun v => inject_Z (truncQ (wd j v * 1000000))) (seq 1 T'))%Q.
        { apply qsum_le. intros v Hv. apply in_seq in Hv. pose proof (truncQ_bounds _ (Ht j v Hj ltac:(lia))) as (_ & _ & L). lra. }
        lra. }
    specialize (C' j). split; [lia|]. rewrite Hb.
    assert (0 < inject_Z (sumZ (map (fun v => truncQ (wd j v * 1000000)%Q) (seq 0 T)) + topic_all lens z j))%Q; [|lra].
    change 0%Q with (inject_Z 0). rewrite <- Zlt_Qlt. lia.
  - intros n Hn. exists (z n). split; [apply Hz; exact Hn|].
    destruct (truncQ_bounds _ (Ht (z n) (w n) (Hz n Hn) (Hw n Hn))) as (G & _).
    assert (1 <= topic_word w lens z (z n) (w n))%Z.
    { apply (count_member _ _ n); [apply in_seq; lia|]. rewrite !Nat.eqb_refl. reflexivity. }
    assert (0 < inject_Z (truncQ (wd (z n) (w n) * 1000000) + topic_word w lens z (z n) (w n)))%Q; [|lra].
    change 0%Q with (inject_Z 0). rewrite <- Zlt_Qlt. lia.
Qed.

(** ** The mixture *)
Lemma mom_loop_S {S} (step : nat -> S -> S) n burnIn thinning lg s :
  mom_loop step (Datatypes.S n) burnIn thinning lg s = mom_step step burnIn thinning lg (mom_loop step n burnIn thinning lg s) n.
Proof. unfold mom_loop. rewrite seq_S, fold_left_app. reflexivity. Qed.
