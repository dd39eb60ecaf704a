(** * Proofs about the CVB and CVB0 trainers. *)
From Coq Require Import List ZArith QArith Arith Bool Lia Lqa Permutation.
From Verif Require Import Base EvalSpec EvalProofs CvbModel CvbSpec.
Import ListNotations.
Open Scope nat_scope.

(** ** Sums *)
Lemma qsum_zero {A} (f : A -> Q) l : (forall a, In a l -> f a == 0)%Q -> (qsum f l == 0)%Q.
Proof.
  intros H. rewrite (qsum_ext f (fun _ => 0%Q) l H), qsum_const. ring.
Qed.
Lemma qsum_delta (v : Q) i N :
  i < N -> (qsum (fun j => if j =? i then v else 0) (seq 0 N) == v)%Q.
Proof.
  intros Hi. replace N with (i + (1 + (N - i - 1))) by lia.
  rewrite !seq_app, !qsum_app. cbn [Nat.add seq].
  rewrite (qsum_zero _ (seq 0 i)), (qsum_zero _ (seq (i + 1) _)).
  - rewrite qsum_cons, qsum_nil, Nat.eqb_refl. ring.
  - intros a Ha. apply in_seq in Ha. destruct (Nat.eqb_spec a i); [lia|reflexivity].
  - intros a Ha. apply in_seq in Ha. destruct (Nat.eqb_spec a i); [lia|reflexivity].
Qed.
Lemma qsum_nonneg {A} (f : A -> Q) l : (forall a, In a l -> 0 <= f a)%Q -> (0 <= qsum f l)%Q.
Proof.
  intros H. rewrite <- (qsum_zero (fun _ : A => 0%Q) l) by reflexivity.
  apply qsum_le. exact H.
Qed.
Lemma qsum_member (f : nat -> Q) i N :
  i < N -> (forall j, j < N -> (0 <= f j)%Q) -> (f i <= qsum f (seq 0 N))%Q.
Proof.
  intros Hi Hf. rewrite <- (qsum_delta (f i) i N Hi). apply qsum_le.
  intros a Ha. apply in_seq in Ha. destruct (Nat.eqb_spec a i) as [->|]; [apply Qle_refl|apply Hf; lia].
Qed.
Lemma qsum_pos_all (f : nat -> Q) N :
  0 < N -> (forall j, j < N -> (0 < f j)%Q) -> (0 < qsum f (seq 0 N))%Q.
Proof.
  intros HN Hf. apply Qlt_le_trans with (f 0); [apply Hf; exact HN|].
  apply qsum_member; [exact HN|]. intros j Hj. apply Qlt_le_weak, Hf, Hj.
Qed.

(** ** One topic update *)
Definition delta3 (d n k : nat) (v : Q) : nat -> nat -> nat -> Q :=
  fun d' n' k' => if d' =? d then if n' =? n then if k' =? k then v else 0%Q else 0%Q else 0%Q.

Lemma upd3_delta (z : nat -> nat -> nat -> Q) d n k p d' n' k' :
  (upd3 z d n k p d' n' k' == z d' n' k' + delta3 d n k (p - z d n k) d' n' k')%Q.
Proof.
  unfold upd3, upd2, upd1, delta3.
  destruct (Nat.eqb_spec d' d) as [->|]; [|ring].
  destruct (Nat.eqb_spec n' n) as [->|]; [|ring].
  destruct (Nat.eqb_spec k' k) as [->|]; ring.
Qed.
Lemma upd2_delta (f : nat -> nat -> Q) i j v i' j' :
  (upd2 f i j (f i j + v) i' j' == f i' j' + if (i' =? i) && (j' =? j) then v else 0)%Q.
Proof.
  unfold upd2, upd1. destruct (Nat.eqb_spec i' i) as [->|]; cbn [andb]; [|ring].
  destruct (Nat.eqb_spec j' j) as [->|]; ring.
Qed.
Lemma upd1_delta (f : nat -> Q) i v i' :
  (upd1 f i (f i + v) i' == f i' + if i' =? i then v else 0)%Q.
Proof. unfold upd1. destruct (Nat.eqb_spec i' i) as [->|]; ring. Qed.

Section Delta.
  Context (D : nat) (word : nat -> nat -> nat) (len : nat -> nat).

  Lemma doc_total_delta z z' d n k v d' k' :
    n < len d ->
    (forall a b c, z' a b c == z a b c + delta3 d n k v a b c)%Q ->
    (doc_total len z' d' k' == doc_total len z d' k' + if (d' =? d) && (k' =? k) then v else 0)%Q.
  Proof.
    intros Hn H. unfold doc_total.
    rewrite (qsum_ext _ (fun b => z d' b k' + delta3 d n k v d' b k')%Q) by (intros; apply H).
    rewrite qsum_plus. apply Qplus_comp; [reflexivity|].
    unfold delta3. destruct (Nat.eqb_spec d' d) as [->|].
    - destruct (Nat.eqb_spec k' k) as [->|]; cbn [andb].
      + apply qsum_delta. exact Hn.
      + apply qsum_zero. intros. destruct (_ =? n); reflexivity.
    - cbn [andb]. apply qsum_zero. reflexivity.
  Qed.

  Lemma topic_total_delta z z' d n k v k' :
    d < D -> n < len d ->
    (forall a b c, z' a b c == z a b c + delta3 d n k v a b c)%Q ->
    (topic_total D len z' k' == topic_total D len z k' + if k' =? k then v else 0)%Q.
  Proof.
    intros Hd Hn H. unfold topic_total.
    rewrite (qsum_ext _ (fun a => doc_total len z a k' + if (a =? d) && (k' =? k) then v else 0)%Q)
      by (intros; eapply doc_total_delta; eassumption).
    rewrite qsum_plus. apply Qplus_comp; [reflexivity|].
    destruct (k' =? k).
    - rewrite <- (qsum_delta v d D Hd). apply qsum_ext. intros a _. destruct (a =? d); reflexivity.
    - apply qsum_zero. intros. rewrite andb_false_r. reflexivity.
  Qed.

  Lemma word_total_delta z z' d n k v k' t' :
    d < D -> n < len d ->
    (forall a b c, z' a b c == z a b c + delta3 d n k v a b c)%Q ->
    (word_total D word len z' k' t' ==
     word_total D word len z k' t' + if (k' =? k) && (t' =? word d n) then v else 0)%Q.
  Proof.
    intros Hd Hn H. unfold word_total.
    set (inner := fun a => (qsum (fun b => if word a b =? t' then z a b k' else 0) (seq 0 (len a)))%Q).
    rewrite (qsum_ext _ (fun a => inner a + if (a =? d) then (if (k' =? k) && (t' =? word d n) then v else 0) else 0)%Q).
    - rewrite qsum_plus. apply Qplus_comp; [reflexivity|]. apply qsum_delta. exact Hd.
    - intros a _. unfold inner.
      rewrite (qsum_ext _ (fun b => (if word a b =? t' then z a b k' else 0) +
          (if word a b =? t' then delta3 d n k v a b k' else 0))%Q).
      2:{ intros b _. destruct (word a b =? t'); [apply H|ring]. }
      rewrite qsum_plus. apply Qplus_comp; [reflexivity|].
      unfold delta3. destruct (Nat.eqb_spec a d) as [->|].
      + destruct (Nat.eqb_spec k' k) as [->|]; cbn [andb].
        * rewrite (qsum_ext _ (fun b => if b =? n then (if t' =? word d n then v else 0) else 0)%Q).
          { apply qsum_delta. exact Hn. }
          intros b _. destruct (Nat.eqb_spec b n) as [->|].
          { rewrite (Nat.eqb_sym t'). destruct (word d n =? t'); reflexivity. }
          destruct (word d b =? t'); reflexivity.
        * apply qsum_zero. intros b _. destruct (word d b =? t'); [|reflexivity]. destruct (b =? n); reflexivity.
      + apply qsum_zero. intros b _. destruct (word a b =? t'); reflexivity.
  Qed.
End Delta.

(** The invariant, for a CVB0 state. *)
Definition inv (c : corpus) (K : nat) (bkt : nat -> nat -> Q) (bk : nat -> Q) (s : qst) : Prop :=
  tallies (ndocs c) (words c) (doclen c) K bkt bk (q_dk s) (q_kt s) (q_k s) (q_z s).

Lemma tallies_update D word len K bkt bk dk kt k_ z d n k v z' dk' kt' k_' :
  d < D -> n < len d ->
  tallies D word len K bkt bk dk kt k_ z ->
  (forall a b c, z' a b c == z a b c + delta3 d n k v a b c)%Q ->
  (forall a b, dk' a b == dk a b + if (a =? d) && (b =? k) then v else 0)%Q ->
  (forall a b, kt' a b == kt a b + if (a =? k) && (b =? word d n) then v else 0)%Q ->
  (forall a, k_' a == k_ a + if a =? k then v else 0)%Q ->
  tallies D word len K bkt bk dk' kt' k_' z'.
Proof.
  intros Hd Hn HI Hz Hdk Hkt Hk j Hj. destruct (HI j Hj) as (H1 & H2 & H3).
  split; [|split].
  - intros a Ha. rewrite Hdk, (doc_total_delta len z z' d n k v a j Hn Hz), (H1 a Ha). reflexivity.
  - intros t. rewrite Hkt, (word_total_delta D word len z z' d n k v j t Hd Hn Hz), (H2 t). ring.
  - rewrite Hk, (topic_total_delta D len z z' d n k v j Hd Hn Hz), H3. ring.
Qed.

  Lemma tokens_in c dn : In dn (tokens c) <-> fst dn < ndocs c /\ snd dn < doclen c (fst dn).
  Proof.
    unfold tokens. rewrite in_flat_map. split.
    - intros (d & Hd & H). apply in_map_iff in H as (n & <- & Hn).
      apply in_seq in Hd. apply in_seq in Hn. cbn [fst snd]. lia.
    - intros [Hd Hn]. exists (fst dn). split; [apply in_seq; lia|].
      apply in_map_iff. exists (snd dn). split; [destruct dn; reflexivity|apply in_seq; lia].
  Qed.

Section Cvb0.
  Context (c : corpus) (K T : nat) (tp vp : Q) (special : qst -> nat -> nat -> nat -> option Q).
  Context (bkt : nat -> nat -> Q) (bk : nat -> Q).
  Notation inv := (inv c K bkt bk).

  Lemma topic_step_inv m d n sb k :
    d < ndocs c -> n < doclen c d -> inv (fst sb) -> inv (fst (topic_step c m d n sb k)).
  Proof.
    intros Hd Hn HI. unfold topic_step. destruct (snd sb); [|exact HI].
    destruct (valid_prob (m k)) as [p|]; [|exact HI]. cbn [fst].
    unfold CvbProofs.inv. cbn [q_dk q_kt q_k q_z].
    eapply (tallies_update _ _ _ _ _ _ _ _ _ _ d n k (p - q_z (fst sb) d n k)%Q); try eassumption.
    - intros. apply upd3_delta.
    - intros. apply upd2_delta.
    - intros. apply upd2_delta.
    - intros. apply upd1_delta.
  Qed.

  Lemma topic_steps_inv m d n ks sb :
    d < ndocs c -> n < doclen c d -> inv (fst sb) -> inv (fst (fold_left (topic_step c m d n) ks sb)).
  Proof.
    intros Hd Hn. revert sb. induction ks as [|k ks IH]; intros sb HI; [exact HI|].
    cbn [fold_left]. apply IH. apply topic_step_inv; assumption.
  Qed.

  Lemma token_step_inv sb dn :
    fst dn < ndocs c -> snd dn < doclen c (fst dn) -> inv (fst sb) ->
    inv (fst (token_step c K T tp vp special sb dn)).
  Proof.
    intros Hd Hn HI. unfold token_step. destruct (snd sb); [|exact HI].
    apply topic_steps_inv; assumption.
  Qed.

  Lemma tokens_steps_inv l sb :
    incl l (tokens c) -> inv (fst sb) ->
    inv (fst (fold_left (token_step c K T tp vp special) l sb)).
  Proof.
    revert sb. induction l as [|dn l IH]; intros sb Hl HI; [exact HI|].
    cbn [fold_left]. apply IH; [intros x Hx; apply Hl; right; exact Hx|].
    assert (Hdn : In dn (tokens c)) by (apply Hl; left; reflexivity).
    apply tokens_in in Hdn as [Hd Hn]. apply token_step_inv; assumption.
  Qed.

  Lemma iterate_inv n s : inv s -> inv (fst (iterate c K T tp vp special n s)).
  Proof.
    intros HI. unfold iterate. induction n as [|n IH]; [exact HI|].
    cbn [Nat.iter]. unfold sweep at 1. apply tokens_steps_inv; [apply incl_refl|exact IH].
  Qed.
End Cvb0.

(** ** Initial counts *)
Lemma count_words_loop (z : nat -> nat -> nat -> Q) (word : nat -> nat -> nat) k d :
  forall l kt k' t,
  (fold_left (fun kt n => let t := word d n in upd2 kt k t (kt k t + z d n k)%Q) l kt k' t ==
   kt k' t + if k' =? k then qsum (fun n => if word d n =? t then z d n k else 0)%Q l else 0)%Q.
Proof.
  induction l as [|n l IH]; intros kt k' t; cbn [fold_left].
  - rewrite qsum_nil. destruct (k' =? k); ring.
  - rewrite IH, upd2_delta, qsum_cons, (Nat.eqb_sym t).
    destruct (Nat.eqb_spec k' k) as [->|]; cbn [andb]; [|ring].
    destruct (word d n =? t); ring.
Qed.
Lemma count_words_loop_d c (z : nat -> nat -> nat -> Q) k :
  forall l kt k' t,
  (fold_left (fun kt d => fold_left (fun kt n => let t := words c d n in upd2 kt k t (kt k t + z d n k)%Q)
      (seq 0 (doclen c d)) kt) l kt k' t ==
   kt k' t + if k' =? k then
     qsum (fun d => qsum (fun n => if words c d n =? t then z d n k else 0) (seq 0 (doclen c d)))%Q l else 0)%Q.
Proof.
  induction l as [|d l IH]; intros kt k' t; cbn [fold_left].
  - rewrite qsum_nil. destruct (k' =? k); ring.
  - rewrite IH, count_words_loop, qsum_cons. destruct (k' =? k); ring.
Qed.
Lemma count_words_loop_k c (z : nat -> nat -> nat -> Q) k' t :
  forall l kt, NoDup l ->
  (fold_left (fun kt k => fold_left (fun kt d => fold_left (fun kt n => let t := words c d n in upd2 kt k t (kt k t + z d n k)%Q)
      (seq 0 (doclen c d)) kt) (seq 0 (ndocs c)) kt) l kt k' t ==
   kt k' t + if in_dec Nat.eq_dec k' l then word_total (ndocs c) (words c) (doclen c) z k' t else 0)%Q.
Proof.
  induction l as [|k l IH]; intros kt Hl; cbn [fold_left].
  - destruct (in_dec Nat.eq_dec k' []) as [[]|]. ring.
  - inversion Hl as [|? ? Hk Hl']; subst. rewrite (IH _ Hl'), count_words_loop_d.
    destruct (Nat.eqb_spec k' k) as [->|].
    + destruct (in_dec Nat.eq_dec k l) as [H|_]; [contradiction|].
      destruct (in_dec Nat.eq_dec k (k :: l)) as [_|H]; [|destruct H; left; reflexivity].
      unfold word_total. ring.
    + destruct (in_dec Nat.eq_dec k' l) as [H|H];
      destruct (in_dec Nat.eq_dec k' (k :: l)) as [H'|H']; try ring.
      * destruct H'. right. exact H.
      * destruct H' as [->|H']; [congruence|contradiction].
Qed.

Lemma word_total_ext D word len z z' k t :
  (forall d n, d < D -> n < len d -> (z d n k == z' d n k)%Q) ->
  (word_total D word len z k t == word_total D word len z' k t)%Q.
Proof.
  intros H. unfold word_total. apply qsum_ext. intros d Hd. apply in_seq in Hd.
  apply qsum_ext. intros n Hn. apply in_seq in Hn. destruct (_ =? t); [apply H; lia|reflexivity].
Qed.

Lemma calculate_counts_inv c maxN K z :
  (forall d, d < ndocs c -> doclen c d <= maxN) ->
  inv c K (fun _ _ => 0%Q) (fun _ => 0%Q) (calculate_counts c maxN K z).
Proof.
  intros HN k Hk. unfold calculate_counts. cbn [q_dk q_kt q_k q_z].
  assert (Hdoc : forall d, d < ndocs c ->
    (qsum (fun n => zero_tail c z d n k) (seq 0 maxN) == doc_total (doclen c) (zero_tail c z) d k)%Q).
  { intros d Hd. unfold doc_total. specialize (HN d Hd).
    replace maxN with (doclen c d + (maxN - doclen c d)) by lia.
    rewrite seq_app, qsum_app. cbn [Nat.add].
    rewrite (qsum_zero _ (seq (doclen c d) _)); [ring|].
    intros n Hn. apply in_seq in Hn. unfold zero_tail.
    destruct (Nat.ltb_spec n (doclen c d)); [lia|reflexivity]. }
  split; [exact Hdoc|split].
  - intros t. unfold count_words. rewrite count_words_loop_k by apply seq_NoDup.
    destruct (in_dec Nat.eq_dec k (seq 0 K)) as [_|H]; [reflexivity|].
    destruct H. apply in_seq. lia.
  - unfold topic_total.
    rewrite (qsum_ext _ (fun d => doc_total (doclen c) (zero_tail c z) d k)); [unfold doc_total; ring|].
    intros d Hd. apply in_seq in Hd. apply Hdoc. lia.
Qed.
