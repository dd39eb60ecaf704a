From Coq Require Import List ZArith QArith Qfield Arith Bool Lia Lqa Permutation.
From Verif Require Import Base EvalSpec EvalProofs CvbModel CvbProofs CvbMore GibbsModel GibbsSpec GibbsProofs.
Import ListNotations.
Open Scope nat_scope.

(** ** Order of the visits *)
Lemma positions_map len m p : positions len m p = map (fun i => (p + 1 + i) mod len) (seq 0 m).
Proof.
  destruct len as [|l0]; [|set (len := S l0); assert (Hl : len <> 0) by discriminate].
  { revert p. induction m as [|m IH]; intros p; [reflexivity|]. cbn [positions seq map]. rewrite IH.
    rewrite <- seq_shift, map_map. f_equal; [cbn [Nat.modulo]; lia|]. apply map_ext. intros i. cbn [Nat.modulo]. lia. }
  revert p. induction m as [|m IH]; intros p; [reflexivity|]. cbn [positions seq map]. rewrite IH.
  rewrite <- seq_shift, map_map. f_equal; [f_equal; lia|]. apply map_ext. intros i.
  rewrite <- Nat.add_assoc, Nat.add_mod_idemp_l by assumption. f_equal; lia.
Qed.

Lemma positions_perm len p : Permutation (positions len len p) (seq 0 len).
Proof.
  destruct (Nat.eq_dec len 0) as [->|Hl]; [constructor|].
  rewrite positions_map. apply NoDup_Permutation_bis.
    apply (NoDup_nth _ 0). rewrite map_length, seq_length. intros i j Hi Hj H.
    assert (N : forall i, i < len -> nth i (map (fun i => (p + 1 + i) mod len) (seq 0 len)) 0 = (p + 1 + i) mod len).
    { intros x Hx. erewrite nth_error_nth; [reflexivity|]. rewrite nth_error_map, nth_error_seq0 by exact Hx. reflexivity. }
    rewrite (N i Hi), (N j Hj) in H.
    pose proof (Nat.div_mod (p + 1 + i) len Hl). pose proof (Nat.div_mod (p + 1 + j) len Hl).
    assert ((p + 1 + i) / len = (p + 1 + j) / len); nia.
  - rewrite map_length, !seq_length. lia.
  - intros x Hx. apply in_map_iff in Hx. destruct Hx as (i & <- & _). apply in_seq.
    pose proof (Nat.mod_upper_bound (p + 1 + i) len Hl). lia.
Qed.

(** ** The walk *)
Lemma Qle_bool_false x y : Qle_bool x y = false -> (y < x)%Q.
Proof.
  intros H. destruct (Qlt_le_dec y x) as [G|G]; [exact G|].
  apply Qle_bool_iff in G. congruence.
Qed.

Lemma seq_cons j n : seq j (S n) = j :: seq (S j) n. Proof. reflexivity. Qed.

Lemma walk_owns K dist fuel j x : fuel = K - j -> j <= K -> (0 < x)%Q ->
  (x <= qsum (fun i => nth i dist 0) (seq j (K - j)))%Q ->
  exists k, walk K fuel dist (Z.of_nat j - 1)%Z x = Ok (Z.of_nat k) /\ j <= k < K /\
    (qsum (fun i => nth i dist 0) (seq j (k - j)) < x)%Q /\
    (x <= qsum (fun i => nth i dist 0) (seq j (S k - j)))%Q.
Proof.
  revert j x. induction fuel as [|f IH]; intros j x Hf Hj Hx Hle.
  - rewrite <- Hf in Hle. cbn [seq] in Hle. rewrite qsum_nil in Hle. lra.
  - cbn [walk]. destruct (Qle_bool x 0) eqn:E.
    { apply Qle_bool_iff in E. lra. }
    assert (Ek : ((Z.of_nat j - 1 + 1) mod Z.of_nat K)%Z = Z.of_nat j).
    { rewrite Z.mod_small by lia. lia. }
    rewrite Ek, Nat2Z.id. rewrite <- Hf in Hle. rewrite seq_cons, qsum_cons in Hle.
    destruct (Qlt_le_dec 0 (x - nth j dist 0)%Q) as [Hpos|Hneg].
    + destruct (IH (S j) (x - nth j dist 0)%Q) as (k & W & Hk & L & U); try lia; try assumption.
      { replace (K - S j) with f by lia. lra. }
      exists k. replace (Z.of_nat (S j) - 1)%Z with (Z.of_nat j) in W by lia.
      split; [exact W|]. split; [lia|].
      replace (k - j) with (S (k - S j)) by lia. replace (S k - j) with (S (S k - S j)) by lia.
      rewrite !seq_cons, !qsum_cons. split; lra.
    + exists j. split.
      { destruct f; cbn [walk]; rewrite (Qle_bool_true _ _ Hneg); reflexivity. }
      split; [lia|]. replace (j - j) with 0 by lia. replace (S j - j) with 1 by lia.
      cbn [seq]. rewrite qsum_cons, qsum_nil. split; lra.
Qed.

Lemma qsum_nth_map {A} (f : A -> Q) (l : list A) :
  (qsum (fun i => nth i (map f l) 0) (seq 0 (length l)) == qsum f l)%Q.
Proof.
  induction l as [|x l IH]; [reflexivity|]. cbn [length]. rewrite seq_cons, !qsum_cons.
  rewrite <- seq_shift, qsum_map. cbn [map nth]. rewrite IH. reflexivity.
Qed.

Lemma owns_ext f g k x : (forall i, i <= k -> (f i == g i)%Q) -> owns f k x -> owns g k x.
Proof.
  intros H (A & B). split.
  - rewrite <- (qsum_ext f g); [exact A|]. intros i Hi. apply in_seq in Hi. apply H. lia.
  - rewrite <- (qsum_ext f g); [exact B|]. intros i Hi. apply in_seq in Hi. apply H. lia.
Qed.

(** At most one topic owns a draw when weights are not negative. *)
Lemma owns_unique f k k' x : (forall i, i <= k \/ i <= k' -> (0 <= f i)%Q) -> owns f k x -> owns f k' x -> k = k'.
Proof.
  intros Hf (A & B) (A' & B').
  assert (G : forall p q, p <= q -> (forall i, i < q -> (0 <= f i)%Q) ->
     (qsum f (seq 0 p) <= qsum f (seq 0 q))%Q).
  { intros p q Hpq Hn. replace q with (p + (q - p)) by lia. rewrite seq_app, qsum_app.
    assert (0 <= qsum f (seq (0 + p) (q - p)))%Q; [|lra].
    apply qsum_nonneg. intros i Hi. apply in_seq in Hi. apply Hn. lia. }
  destruct (Nat.lt_total k k') as [L|[L|L]]; [|exact L|]; exfalso.
  - pose proof (G (S k) k' ltac:(lia) ltac:(intros; apply Hf; lia)). lra.
  - pose proof (G (S k') k ltac:(lia) ltac:(intros; apply Hf; lia)). lra.
Qed.

Lemma count_without (p : nat -> bool) n l : NoDup l -> In n l ->
  count (fun m => negb (m =? n) && p m) l = (count p l - Z.b2z (p n))%Z.
Proof.
  intros Hd Hi. induction l as [|x l IH]; [contradiction|]. inversion Hd; subst. rewrite !count_cons.
  destruct (Nat.eq_dec x n) as [->|Hne].
  - rewrite Nat.eqb_refl. cbn [negb andb Z.b2z].
    rewrite (count_ext _ p); [lia|]. intros y Hy. destruct (Nat.eqb_spec y n); [subst; contradiction|reflexivity].
  - destruct Hi as [->|Hi]; [contradiction|]. rewrite IH by assumption.
    destruct (Nat.eqb_spec x n); [contradiction|]. cbn [negb andb]. lia.
Qed.

(** ** One token *)
Section Visit.
  Context (K T : nat) (w : nat -> nat) (lens : list nat) (isQuery : bool).
  Context (bkv : nat -> nat -> Z) (bk : nat -> Z) (a b : nat -> Q) (special : gst -> nat -> nat -> Z).
  Let D := length lens.
  Let ok := counts_ok K w lens isQuery bkv bk.
  Definition cond (z : nat -> nat) (d n j : nat) : Q :=
    if isQuery then conditional_fixed T w lens bkv bk a b z d n j
    else conditional T w lens bkv bk a b z d n j.

  (** What makes every draw well defined. *)
  Definition proper : Prop :=
    (forall j, j < K -> (0 < a j)%Q) /\
    (forall n, n < total lens -> (0 <= b (w n))%Q) /\
    (forall j n, j < K -> n < total lens -> (0 <= bkv j (w n))%Z) /\
    (forall j, j < K -> (0 <= bk j)%Z /\ (0 < inject_Z (bk j) + qsum b (seq 0 T))%Q) /\
    (forall n, n < total lens -> exists j, j < K /\ (0 < inject_Z (bkv j (w n)) + b (w n))%Q).
  Hypothesis Hproper : proper.

  Lemma injZ_nonneg z : (0 <= z)%Z -> (0 <= inject_Z z)%Q.
  Proof. intros H. change 0%Q with (inject_Z 0). rewrite <- Zle_Qle. exact H. Qed.
  Lemma injZ_le x y : (x <= y)%Z -> (inject_Z x <= inject_Z y)%Q.
  Proof. intros H. rewrite <- Zle_Qle. exact H. Qed.

  Lemma cond_props z d n : n < total lens ->
    (forall j, j < K -> (0 <= cond z d n j)%Q) /\ (0 < qsum (cond z d n) (seq 0 K))%Q.
  Proof.
    destruct Hproper as (Pa & Pb & Pkv & Pk & Pw). intros Hn.
    assert (P : forall j, j < K -> (0 <= cond z d n j)%Q /\ ((0 < inject_Z (bkv j (w n)) + b (w n))%Q -> (0 < cond z d n j)%Q)).
    { intros j Hj. destruct (Pk j Hj) as (Pk0 & Pk1). pose proof (Pa j Hj) as Paj. pose proof (Pb n Hn) as Pbw.
      pose proof (injZ_nonneg _ (Pkv j n Hj Hn)) as Pkvj.
      pose proof (injZ_nonneg _ (count_nonneg (fun m => negb (m =? n) && (z m =? j)) (doc_tokens lens d))) as C1.
      pose proof (count_nonneg (fun m => negb (m =? n) && ((z m =? j) && (w m =? w n))) (seq 0 (total lens))) as C2.
      pose proof (count_nonneg (fun m => negb (m =? n) && (z m =? j)) (seq 0 (total lens))) as C3.
      unfold cond. destruct isQuery; unfold conditional, conditional_fixed, others_doc, others_word, others_all.
      - split.
        + apply Qle_shift_div_l; [exact Pk1|]. rewrite Qmult_0_l. apply Qmult_le_0_compat; lra.
        + intros Hp. apply Qlt_shift_div_l; [exact Pk1|]. rewrite Qmult_0_l. apply Qmult_lt_0_compat; lra.
      - pose proof (injZ_le (bkv j (w n)) (bkv j (w n) + count (fun m => negb (m =? n) && ((z m =? j) && (w m =? w n))) (seq 0 (total lens))) ltac:(lia)) as L1.
        pose proof (injZ_le (bk j) (bk j + count (fun m => negb (m =? n) && (z m =? j)) (seq 0 (total lens))) ltac:(lia)) as L2.
        split.
        + apply Qle_shift_div_l; [lra|]. rewrite Qmult_0_l. apply Qmult_le_0_compat; lra.
        + intros Hp. apply Qlt_shift_div_l; [lra|]. rewrite Qmult_0_l. apply Qmult_lt_0_compat; lra. }
    split; [intros j Hj; apply P; exact Hj|].
    destruct (Pw n Hn) as (j & Hj & Hp).
    apply Qlt_le_trans with (cond z d n j); [apply P; assumption|].
    apply qsum_member; [exact Hj|]. intros i Hi. apply P. exact Hi.
  Qed.

  Lemma visit_total d i r s : K <= 256 -> d < D -> i < nth d lens 0 -> ok s -> (0 < r)%Q -> (r <= 1)%Q ->
    let n := offset lens d + i in
    exists k s', visit K T w a b isQuery special d n r s = Ok s' /\ k < K /\
      g_z s' = upd1 (g_z s) n k /\
      owns (cond (g_z s) d n) k (r * qsum (cond (g_z s) d n) (seq 0 K))%Q.
  Proof.
    intros HK Hd Hi (H1 & H2 & H3 & H4) Hr0 Hr1 n.
    pose proof (offset_end lens d Hd) as Hend.
    assert (Hn : n < total lens) by (subst n; lia).
    destruct (cond_props (g_z s) d n Hn) as (Cn & Cp).
    assert (Hall : In n (seq 0 (total lens))) by (apply in_seq; lia).
    pose proof (seq_NoDup (total lens) 0) as Hnd.
    unfold visit. set (s1 := mkG _ _ _ _).
    assert (W : forall j, j < K -> exists q, weight T a b s1 d (w n) j = Some q /\ (q == cond (g_z s) d n j)%Q).
    { intros j Hj. destruct Hproper as (_ & _ & _ & Pk & _). destruct (Pk j Hj) as (Pk0 & Pk1).
      assert (E1 : g_dk s1 d j = others_doc lens (g_z s) n d j).
      { unfold others_doc. rewrite (count_without (fun m => g_z s m =? j)); [|apply seq_NoDup|apply doc_token_in; exact Hi].
        subst s1. cbn [g_dk]. rewrite inc2_at, (H2 d j Hd), Nat.eqb_refl, (Nat.eqb_sym j). cbn [andb]. unfold doc_topic.
        destruct (g_z s n =? j); cbn [Z.b2z]; lia. }
      assert (E2 : g_kv s1 j (w n) = (bkv j (w n) + if isQuery then 0 else others_word w lens (g_z s) n j (w n))%Z).
      { subst s1. cbn [g_kv]. rewrite inc2_at, (H3 j (w n)), (Nat.eqb_sym j), Nat.eqb_refl. unfold delta.
        destruct isQuery; [destruct (_ && _); lia|].
        unfold others_word. rewrite (count_without (fun m => (g_z s m =? j) && (w m =? w n))) by assumption.
        rewrite Nat.eqb_refl. unfold topic_word. destruct (g_z s n =? j); cbn [Z.b2z andb]; lia. }
      assert (E3 : g_k s1 j = (bk j + if isQuery then 0 else others_all lens (g_z s) n j)%Z).
      { subst s1. cbn [g_k]. rewrite inc1_at, (H4 j), (Nat.eqb_sym j). unfold delta.
        destruct isQuery; [destruct (g_z s n =? j); lia|].
        unfold others_all. rewrite (count_without (fun m => g_z s m =? j)) by assumption.
        unfold topic_all. destruct (g_z s n =? j); cbn [Z.b2z]; lia. }
      unfold weight. rewrite E1, E2, E3. rewrite Qeq_bool_false.
      - eexists. split; [reflexivity|]. unfold cond.
        destruct isQuery; unfold conditional, conditional_fixed; rewrite ?Z.add_0_r; reflexivity.
      - destruct isQuery; rewrite ?Z.add_0_r; [lra|].
        pose proof (injZ_le (bk j) (bk j + others_all lens (g_z s) n j)) as L.
        pose proof (count_nonneg (fun m => negb (m =? n) && (g_z s m =? j)) (seq 0 (total lens))) as C.
        unfold others_all in *. specialize (L ltac:(lia)). lra. }
    set (dist := map (fun j => match weight T a b s1 d (w n) j with Some q => q | None => 0%Q end) (seq 0 K)).
    assert (ED : all_some (map (weight T a b s1 d (w n)) (seq 0 K)) = Some dist).
    { apply all_some_map. intros j Hj. apply in_seq in Hj. destruct (W j ltac:(lia)) as (q & -> & _). reflexivity. }
    assert (DN : forall j, j < K -> (nth j dist 0 == cond (g_z s) d n j)%Q).
    { intros j Hj. subst dist. erewrite nth_error_nth; [|rewrite nth_error_map, nth_error_seq0 by exact Hj; reflexivity].
      destruct (W j Hj) as (q & -> & E). exact E. }
    assert (DS : (qsum (fun x => x) dist == qsum (cond (g_z s) d n) (seq 0 K))%Q).
    { subst dist. rewrite qsum_map. apply qsum_ext. intros j Hj. apply in_seq in Hj.
      destruct (W j ltac:(lia)) as (q & -> & E). exact E. }
    set (C := cond (g_z s) d n) in *.
    assert (DS' : forall k, k <= K -> (qsum (fun i => nth i dist 0) (seq 0 k) == qsum C (seq 0 k))%Q).
    { intros k Hk. apply qsum_ext. intros j Hj. apply in_seq in Hj. apply DN. lia. }
    unfold draw_topic. rewrite ED.
    destruct (walk_owns K dist K 0 (r * qsum (fun x => x) dist)%Q) as (k & Wk & Hk & L & U); try lia.
    { rewrite DS. apply Qmult_lt_0_compat; assumption. }
    { rewrite Nat.sub_0_r, (DS' K) by lia. rewrite DS.
      setoid_replace (qsum C (seq 0 K)) with (1 * qsum C (seq 0 K))%Q at 2 by ring.
      apply Qmult_le_compat_r; [exact Hr1|lra]. }
    change (Z.of_nat 0 - 1)%Z with (-1)%Z in Wk. rewrite Wk. cbn [bind].
    replace (Z.of_nat k <? 0)%Z with false by lia. rewrite Nat2Z.id.
    rewrite Nat.sub_0_r in L, U. rewrite DS, DS' in L by lia. rewrite DS, DS' in U by lia.
    exists k. eexists. split; [reflexivity|]. split; [lia|]. cbn [g_z]. split.
    - subst s1. cbn [g_z]. f_equal. apply Nat.mod_small. unfold u8. lia.
    - split; assumption.
  Qed.
End Visit.
