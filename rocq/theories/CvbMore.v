(** * CVB0 with positive priors: no abort, distributions, training and querying. *)
From Coq Require Import List ZArith QArith Arith Bool Lia Lqa Permutation.
From Verif Require Import Base EvalSpec EvalProofs CvbModel CvbSpec CvbProofs VecProofs.
Import ListNotations.
Open Scope nat_scope.

Lemma Qeq_bool_false a b : ~ (a == b)%Q -> Qeq_bool a b = false.
Proof. intros H. destruct (Qeq_bool a b) eqn:E; [apply Qeq_bool_iff in E; contradiction|reflexivity]. Qed.
Lemma Qle_bool_true a b : (a <= b)%Q -> Qle_bool a b = true.
Proof. apply Qle_bool_iff. Qed.

Lemma all_some_map {A B} (f : A -> option B) (g : A -> B) l :
  (forall a, In a l -> f a = Some (g a)) -> all_some (map f l) = Some (map g l).
Proof.
  induction l as [|a l IH]; intros H; [reflexivity|].
  cbn [map all_some]. rewrite (H a) by (left; reflexivity).
  rewrite IH by (intros; apply H; right; assumption). reflexivity.
Qed.
Lemma qsum_map {A B} (f : B -> Q) (g : A -> B) l : qsum f (map g l) = qsum (fun a => f (g a)) l.
Proof. unfold qsum. rewrite map_map. reflexivity. Qed.
Lemma nth_error_seq0 N k : k < N -> nth_error (seq 0 N) k = Some k.
Proof.
  intros H. rewrite (nth_error_nth' _ 0) by (rewrite seq_length; lia). rewrite seq_nth by lia. reflexivity.
Qed.

Lemma word_total_member D word len z d n k :
  d < D -> n < len d ->
  (forall d n, d < D -> n < len d -> (0 <= z d n k)%Q) ->
  (z d n k <= word_total D word len z k (word d n))%Q.
Proof.
  intros Hd Hn Hz. unfold word_total.
  set (inner := fun a => qsum (fun b => if word a b =? word d n then z a b k else 0%Q) (seq 0 (len a))).
  assert (Hin : forall a, a < D -> (0 <= inner a)%Q).
  { intros a Ha. apply qsum_nonneg. intros b Hb. apply in_seq in Hb.
    destruct (_ =? _); [apply Hz; lia|apply Qle_refl]. }
  apply Qle_trans with (inner d); [|apply (qsum_member inner d D Hd Hin)].
  set (f := fun b => if word d b =? word d n then z d b k else 0%Q).
  assert (Hf : f n = z d n k) by (unfold f; rewrite Nat.eqb_refl; reflexivity).
  rewrite <- Hf. apply (qsum_member f n (len d) Hn).
  intros b Hb. unfold f. destruct (_ =? _); [apply Hz; lia|apply Qle_refl].
Qed.
Lemma doc_total_member D len z d n k :
  d < D -> n < len d -> (forall d n, d < D -> n < len d -> (0 <= z d n k)%Q) ->
  (z d n k <= doc_total len z d k)%Q.
Proof.
  intros Hd Hn Hz. unfold doc_total. apply (qsum_member (fun b => z d b k)); [exact Hn|].
  intros b Hb. apply Hz; assumption.
Qed.
Lemma doc_total_nonneg D len z d k :
  d < D -> (forall d n, d < D -> n < len d -> (0 <= z d n k)%Q) -> (0 <= doc_total len z d k)%Q.
Proof.
  intros Hd Hz. apply qsum_nonneg. intros b Hb. apply in_seq in Hb. apply Hz; lia.
Qed.
Lemma topic_total_member D len z d n k :
  d < D -> n < len d -> (forall d n, d < D -> n < len d -> (0 <= z d n k)%Q) ->
  (z d n k <= topic_total D len z k)%Q.
Proof.
  intros Hd Hn Hz. unfold topic_total.
  apply Qle_trans with (doc_total len z d k).
  - eapply doc_total_member; eassumption.
  - apply (qsum_member (fun d => doc_total len z d k) d D Hd).
    intros a Ha. apply (doc_total_nonneg D); assumption.
Qed.
Lemma word_total_nonneg D word len z k t :
  (forall d n, d < D -> n < len d -> (0 <= z d n k)%Q) -> (0 <= word_total D word len z k t)%Q.
Proof.
  intros Hz. apply qsum_nonneg. intros d Hd. apply in_seq in Hd.
  apply qsum_nonneg. intros n Hn. apply in_seq in Hn. destruct (_ =? t); [apply Hz; lia|apply Qle_refl].
Qed.

Section Pos.
  Context (c : corpus) (K T : nat) (tp vp : Q) (special : qst -> nat -> nat -> nat -> option Q).
  Context (bkt : nat -> nat -> Q) (bk : nat -> Q).
  Context (Htp : (0 < tp)%Q) (Hvp : (0 < vp)%Q) (HK : 0 < K) (HT : 0 < T).
  Context (Hbkt : forall k t, k < K -> (0 <= bkt k t)%Q) (Hbk : forall k, k < K -> (0 <= bk k)%Q).
  Notation inv := (inv c K bkt bk).
  Notation nonneg z := (nonneg_resp (ndocs c) (doclen c) K z).
  Notation it := (iterate c K T tp vp special).

  Lemma raw_pos s d n k : inv s -> nonneg (q_z s) -> d < ndocs c -> n < doclen c d -> k < K ->
    exists x, raw c T tp vp s d n k = Some x /\ (0 < x)%Q.
  Proof.
    intros HI HP Hd Hn Hk. destruct (HI k Hk) as (H1 & H2 & H3).
    assert (Hz : forall d n, d < ndocs c -> n < doclen c d -> (0 <= q_z s d n k)%Q)
      by (intros; apply HP; assumption).
    pose proof (doc_total_member _ _ _ d n k Hd Hn Hz) as E1.
    pose proof (word_total_member _ (words c) _ _ d n k Hd Hn Hz) as E2.
    pose proof (topic_total_member _ _ _ d n k Hd Hn Hz) as E3.
    specialize (H1 d Hd). specialize (H2 (words c d n)).
    specialize (Hbkt k (words c d n) Hk). specialize (Hbk k Hk).
    assert (Q1 : (0 < tp + q_dk s d k - q_z s d n k)%Q) by lra.
    assert (Q2 : (0 < vp + q_kt s k (words c d n) - q_z s d n k)%Q) by lra.
    assert (Q3 : (0 < qnat T * vp + q_k s k - q_z s d n k)%Q).
    { assert (0 < qnat T * vp)%Q by (apply Qmult_lt_0_compat; [apply qnat_pos; exact HT|exact Hvp]). lra. }
    unfold raw. rewrite Qeq_bool_false by lra. eexists. split; [reflexivity|].
    apply Qlt_shift_div_l; [exact Q3|]. rewrite Qmult_0_l. apply Qmult_lt_0_compat; assumption.
  Qed.

  Definition rawv s d n k : Q := match raw c T tp vp s d n k with Some x => x | None => 0%Q end.

  Lemma mems_pos s d n : inv s -> nonneg (q_z s) -> d < ndocs c -> n < doclen c d ->
    exists p, (forall k, k < K -> mems c K T tp vp special s d n k = Some (p k) /\ (0 < p k)%Q /\ (p k <= 1)%Q)
      /\ (qsum p (seq 0 K) == 1)%Q.
  Proof.
    intros HI HP Hd Hn.
    assert (Hraw : forall k, k < K -> raw c T tp vp s d n k = Some (rawv s d n k) /\ (0 < rawv s d n k)%Q).
    { intros k Hk. destruct (raw_pos s d n k HI HP Hd Hn Hk) as (x & E & Hx).
      unfold rawv. rewrite E. split; [reflexivity|exact Hx]. }
    set (den := qsum (rawv s d n) (seq 0 K)).
    assert (Hden : (0 < den)%Q) by (apply qsum_pos_all; [exact HK|]; intros; apply Hraw; assumption).
    exists (fun k => rawv s d n k / den)%Q. split.
    - intros k Hk. unfold mems.
      rewrite (all_some_map _ (rawv s d n)) by (intros a Ha; apply in_seq in Ha; apply Hraw; lia).
      assert (E : qsum (fun x => x) (map (rawv s d n) (seq 0 K)) = den) by (rewrite qsum_map; reflexivity).
      cbv zeta. rewrite E. rewrite Qeq_bool_false by lra.
      rewrite nth_error_map, nth_error_seq0 by exact Hk. cbn [option_map]. split; [reflexivity|].
      destruct (Hraw k Hk) as [_ Hx].
      assert (Hle : (rawv s d n k <= den)%Q).
      { apply (qsum_member (rawv s d n) k K Hk). intros j Hj. apply Qlt_le_weak, Hraw, Hj. }
      split.
      + apply Qlt_shift_div_l; [exact Hden|]. rewrite Qmult_0_l. exact Hx.
      + apply Qle_shift_div_r; [exact Hden|]. rewrite Qmult_1_l. exact Hle.
    - rewrite (qsum_ext _ (fun k => (/ den) * rawv s d n k)%Q) by (intros; unfold Qdiv; ring).
      rewrite qsum_scale. fold den. rewrite Qmult_comm. apply Qmult_inv_r. lra.
  Qed.

  Lemma topic_loop m d n (p : nat -> Q) s j :
    (forall k, k < j -> valid_prob (m k) = Some (p k)) ->
    exists s', fold_left (topic_step c m d n) (seq 0 j) (s, true) = (s', true) /\
      (forall d' n' k', (d', n') <> (d, n) -> q_z s' d' n' k' = q_z s d' n' k') /\
      (forall k, k < j -> q_z s' d n k = p k) /\
      (forall k, j <= k -> q_z s' d n k = q_z s d n k).
  Proof.
    induction j as [|j IH]; intros Hm.
    - exists s. repeat split; try reflexivity. intros; lia.
    - destruct IH as (s1 & E & H1 & H2 & H3); [intros; apply Hm; lia|].
      rewrite seq_S, fold_left_app, E. cbn [fold_left Nat.add].
      unfold topic_step. cbn [snd fst]. rewrite Hm by lia.
      eexists. split; [reflexivity|]. cbn [q_z]. unfold upd3, upd2, upd1. split; [|split].
      + intros d' n' k' Hne. destruct (Nat.eqb_spec d' d) as [->|]; [|apply H1; exact Hne].
        destruct (Nat.eqb_spec n' n) as [->|]; [congruence|apply H1; exact Hne].
      + intros k Hk. rewrite !Nat.eqb_refl. destruct (Nat.eqb_spec k j) as [->|]; [reflexivity|apply H2; lia].
      + intros k Hk. rewrite !Nat.eqb_refl. destruct (Nat.eqb_spec k j) as [->|]; [lia|apply H3; lia].
  Qed.

  Definition normal (z : nat -> nat -> nat -> Q) (d n : nat) : Prop :=
    (forall k, k < K -> (0 < z d n k)%Q) /\ (qsum (fun k => z d n k) (seq 0 K) == 1)%Q.

  Lemma token_step_good s d n : inv s -> nonneg (q_z s) -> d < ndocs c -> n < doclen c d ->
    exists s', token_step c K T tp vp special (s, true) (d, n) = (s', true) /\
      nonneg (q_z s') /\ normal (q_z s') d n /\
      (forall d' n' k', (d', n') <> (d, n) -> q_z s' d' n' k' = q_z s d' n' k').
  Proof.
    intros HI HP Hd Hn. unfold token_step. cbn [fst snd].
    destruct (mems_pos s d n HI HP Hd Hn) as (p & Hp & Hsum).
    destruct (topic_loop (mems c K T tp vp special s d n) d n p s K) as (s' & E & H1 & H2 & H3).
    { intros k Hk. destruct (Hp k Hk) as (-> & Hp0 & Hp1). unfold valid_prob.
      rewrite !Qle_bool_true by lra. reflexivity. }
    exists s'. split; [exact E|]. split; [|split; [split|exact H1]].
    - intros d' n' k Hd' Hn' Hk. destruct (Nat.eq_dec d' d) as [->|Hne].
      + destruct (Nat.eq_dec n' n) as [->|Hne'].
        * rewrite H2 by exact Hk. apply Qlt_le_weak. apply Hp. exact Hk.
        * rewrite H1 by congruence. apply HP; assumption.
      + rewrite H1 by congruence. apply HP; assumption.
    - intros k Hk. rewrite H2 by exact Hk. apply Hp; exact Hk.
    - rewrite <- Hsum. apply qsum_ext. intros k Hk. apply in_seq in Hk. rewrite H2 by lia. reflexivity.
  Qed.

  Lemma tokens_good l s : incl l (tokens c) -> inv s -> nonneg (q_z s) ->
    exists s', fold_left (token_step c K T tp vp special) l (s, true) = (s', true) /\
      inv s' /\ nonneg (q_z s') /\
      (forall d n, In (d, n) l -> normal (q_z s') d n) /\
      (forall d n, normal (q_z s) d n -> normal (q_z s') d n).
  Proof.
    revert s. induction l as [|[d n] l IH]; intros s Hl HI HP.
    - exists s. split; [reflexivity|]. split; [exact HI|]. split; [exact HP|].
      split; [intros ? ? []|intros; assumption].
    - assert (Hdn : In (d, n) (tokens c)) by (apply Hl; left; reflexivity).
      apply tokens_in in Hdn as [Hd Hn]. cbn [fst snd] in Hd, Hn.
      destruct (token_step_good s d n HI HP Hd Hn) as (s1 & E & HP1 & Hnorm & Hsame).
      cbn [fold_left]. rewrite E.
      assert (HI1 : inv s1).
      { pose proof (token_step_inv c K T tp vp special bkt bk (s, true) (d, n) Hd Hn HI) as H.
        rewrite E in H. exact H. }
      destruct (IH s1) as (s2 & E2 & HI2 & HP2 & Hl2 & Hk2); [intros x Hx; apply Hl; right; exact Hx|exact HI1|exact HP1|].
      exists s2. split; [exact E2|]. split; [exact HI2|]. split; [exact HP2|]. split.
      + intros d' n' [H|H]; [injection H as <- <-; apply Hk2; exact Hnorm|apply Hl2; exact H].
      + intros d' n' H. apply Hk2.
        destruct (Nat.eq_dec d' d) as [->|Hne]; [destruct (Nat.eq_dec n' n) as [->|Hne]|].
        * exact Hnorm.
        * destruct H as [Ha Hb]. split.
          { intros k Hk. rewrite Hsame by congruence. apply Ha, Hk. }
          rewrite <- Hb. apply qsum_ext. intros k _. rewrite Hsame by congruence. reflexivity.
        * destruct H as [Ha Hb]. split.
          { intros k Hk. rewrite Hsame by congruence. apply Ha, Hk. }
          rewrite <- Hb. apply qsum_ext. intros k _. rewrite Hsame by congruence. reflexivity.
  Qed.

  Lemma iterate_good n s : inv s -> nonneg (q_z s) ->
    exists s', it n s = (s', true) /\ inv s' /\ nonneg (q_z s') /\
      (0 < n -> forall d m, d < ndocs c -> m < doclen c d -> normal (q_z s') d m) /\
      (forall d m, normal (q_z s) d m -> normal (q_z s') d m).
  Proof.
    intros HI HP. unfold iterate. induction n as [|n IH].
    - exists s. split; [reflexivity|]. split; [exact HI|]. split; [exact HP|]. split; [lia|auto].
    - destruct IH as (s1 & E & HI1 & HP1 & _ & Hk). 
      change (Nat.iter (S n) (sweep c K T tp vp special) (s, true))
        with (sweep c K T tp vp special (Nat.iter n (sweep c K T tp vp special) (s, true))).
      rewrite E. unfold sweep.
      destruct (tokens_good (tokens c) s1 (incl_refl _) HI1 HP1) as (s2 & E2 & HI2 & HP2 & Hall & Hk2).
      exists s2. split; [exact E2|]. split; [exact HI2|]. split; [exact HP2|]. split.
      + intros _ d m Hd Hm. apply Hall. apply tokens_in. cbn [fst snd]. auto.
      + intros d m H. apply Hk2, Hk, H.
  Qed.

  (** ** Measuring *)
  Lemma round_trip_id x p norm : ~ (norm == 0)%Q -> (round_trip x p norm == x)%Q.
  Proof. intros H. unfold round_trip. field. exact H. Qed.

  Lemma measure_same a s : inv s -> nonneg (q_z s) -> (forall k, k < K -> (0 < a k)%Q) ->
    (forall d k, d < ndocs c -> (q_dk (measure K T a vp s) d k == q_dk s d k)%Q) /\
    (forall k t, k < K -> (q_kt (measure K T a vp s) k t == q_kt s k t)%Q) /\
    q_k (measure K T a vp s) = q_k s /\ q_z (measure K T a vp s) = q_z s.
  Proof.
    intros HI HP Ha. unfold measure. cbn [q_dk q_kt q_k q_z]. split; [|split; [|split; reflexivity]].
    - intros d k Hd. apply round_trip_id. intros E.
      assert (0 < qsum (fun k => q_dk s d k + a k)%Q (seq 0 K))%Q; [|lra].
      apply qsum_pos_all; [exact HK|]. intros j Hj.
      destruct (HI j Hj) as (H1 & _). specialize (H1 d Hd). specialize (Ha j Hj).
      assert (0 <= doc_total (doclen c) (q_z s) d j)%Q
        by (apply (doc_total_nonneg (ndocs c)); [exact Hd|]; intros; apply HP; assumption). lra.
    - intros k t Hk. apply round_trip_id. intros E.
      assert (0 < qsum (fun t => q_kt s k t + vp)%Q (seq 0 T))%Q; [|lra].
      apply qsum_pos_all; [exact HT|]. intros j Hj.
      destruct (HI k Hk) as (_ & H2 & _). specialize (H2 j). specialize (Hbkt k j Hk).
      assert (0 <= word_total (ndocs c) (words c) (doclen c) (q_z s) k j)%Q
        by (apply word_total_nonneg; intros; apply HP; assumption). lra.
  Qed.

  Lemma measure_inv a s : inv s -> nonneg (q_z s) -> (forall k, k < K -> (0 < a k)%Q) ->
    inv (measure K T a vp s).
  Proof.
    intros HI HP Ha. destruct (measure_same a s HI HP Ha) as (M1 & M2 & M3 & M4).
    intros k Hk. destruct (HI k Hk) as (H1 & H2 & H3). rewrite M3, M4. split; [|split; [|exact H3]].
    - intros d Hd. rewrite M1 by exact Hd. apply H1, Hd.
    - intros t. rewrite M2 by exact Hk. apply H2.
  Qed.

  Lemma run_calls_good a cs s : inv s -> nonneg (q_z s) -> (forall k, k < K -> (0 < a k)%Q) ->
    let s' := run_calls c K T tp vp special a cs s in
    inv s' /\ nonneg (q_z s') /\
    ((exists n, In n cs /\ (0 < n)%Z) -> forall d m, d < ndocs c -> m < doclen c d -> normal (q_z s') d m) /\
    (forall d m, normal (q_z s) d m -> normal (q_z s') d m).
  Proof.
    intros HI HP Ha. revert s HI HP. induction cs as [|n cs IH]; intros s HI HP.
    - cbn. split; [exact HI|]. split; [exact HP|]. split; [intros (n & [] & _)|auto].
    - unfold run_calls. cbn [fold_left].
      destruct (iterate_good (Z.to_nat n) s HI HP) as (s1 & E & HI1 & HP1 & Hn1 & Hk1). rewrite E. cbn [fst].
      destruct (IH (measure K T a vp s1)) as (HI2 & HP2 & Hn2 & Hk2).
      { apply measure_inv; assumption. }
      { exact HP1. }
      split; [exact HI2|]. split; [exact HP2|]. split.
      + intros (m & [->|Hm] & Hpos) d i Hd Hi.
        * apply Hk2. apply Hn1; [lia|exact Hd|exact Hi].
        * apply Hn2; [exists m; auto|exact Hd|exact Hi].
      + intros d m H. apply Hk2. apply Hk1. exact H.
  Qed.
End Pos.

(** ** Training and querying *)
Definition m_kt_of (m : option mst) : nat -> nat -> Q := match m with Some m => m_kt m | None => fun _ _ => 0%Q end.
Definition m_k_of (m : option mst) : nat -> Q := match m with Some m => m_k m | None => fun _ => 0%Q end.

Lemma add_model_inv c K m s bkt bk :
  inv c K bkt bk s ->
  inv c K (fun k t => bkt k t + m_kt_of m k t)%Q (fun k => bk k + m_k_of m k)%Q (add_model m s).
Proof.
  intros HI k Hk. destruct (HI k Hk) as (H1 & H2 & H3). destruct m as [m|]; cbn [add_model q_dk q_kt q_k q_z m_kt_of m_k_of].
  - split; [exact H1|]. split; [intros t; rewrite H2; ring|rewrite H3; ring].
  - split; [exact H1|]. split; [intros t; rewrite H2; ring|rewrite H3; ring].
Qed.
Lemma sub_model_inv c K m s bkt bk :
  inv c K (fun k t => bkt k t + m_kt_of m k t)%Q (fun k => bk k + m_k_of m k)%Q s ->
  inv c K bkt bk (sub_model m s).
Proof.
  intros HI k Hk. destruct (HI k Hk) as (H1 & H2 & H3). cbv beta in H2, H3.
  destruct m as [m|]; cbn [sub_model q_dk q_kt q_k q_z m_kt_of m_k_of] in *.
  - split; [exact H1|]. split; [intros t; rewrite H2; ring|rewrite H3; ring].
  - split; [exact H1|]. split; [intros t; rewrite H2; ring|rewrite H3; ring].
Qed.
Lemma sub_model_z m s : q_z (sub_model m s) = q_z s.
Proof. destruct m; reflexivity. Qed.
Lemma add_model_z m s : q_z (add_model m s) = q_z s.
Proof. destruct m; reflexivity. Qed.
Lemma sub_model_dk m s : q_dk (sub_model m s) = q_dk s.
Proof. destruct m; reflexivity. Qed.

(** Summing word totals over the vocabulary. *)
Lemma qsum_swap' {A B} (f : A -> B -> Q) la lb :
  (qsum (fun a => qsum (f a) lb) la == qsum (fun b => qsum (fun a => f a b) la) lb)%Q.
Proof.
  induction la as [|a la IH].
  - rewrite qsum_nil. symmetry. apply qsum_zero. reflexivity.
  - rewrite qsum_cons, IH.
    rewrite (qsum_ext (fun b => qsum (fun a0 => f a0 b) (a :: la)) (fun b => f a b + qsum (fun a0 => f a0 b) la)%Q)
      by (intros; rewrite qsum_cons; reflexivity).
    rewrite qsum_plus. reflexivity.
Qed.
Lemma word_total_sum D word len z k T :
  (forall d n, d < D -> n < len d -> word d n < T) ->
  (qsum (fun t => word_total D word len z k t) (seq 0 T) == topic_total D len z k)%Q.
Proof.
  intros HW. unfold word_total, topic_total.
  rewrite qsum_swap'. apply qsum_ext. intros d Hd. apply in_seq in Hd.
  rewrite qsum_swap'. apply qsum_ext. intros n Hn. apply in_seq in Hn.
  rewrite (qsum_ext _ (fun t => if t =? word d n then z d n k else 0%Q))
    by (intros t _; rewrite Nat.eqb_sym; destruct (t =? word d n); reflexivity).
  apply qsum_delta. apply HW; lia.
Qed.

(** ** The schedule *)
Lemma seg_steps minIt lf stop n : exists m : nat, m <= n /\
  calls (fold_left (seg_step minIt lf stop) (seq 0 n) (mkSched [] [] false)) = repeat lf m /\
  bound_iters (fold_left (seg_step minIt lf stop) (seq 0 n) (mkSched [] [] false)) = map (fun i => (Z.of_nat i * lf)%Z) (seq 0 m) /\
  (finished (fold_left (seg_step minIt lf stop) (seq 0 n) (mkSched [] [] false)) = false -> m = n) /\
  (finished (fold_left (seg_step minIt lf stop) (seq 0 n) (mkSched [] [] false)) = true ->
     3 <= m /\ (minIt < Z.of_nat (m - 1) * lf)%Z /\ stop (m - 1) = true).
Proof.
  induction n as [|n (m & Hm & Hc & Hb & Hf & Ht)].
  - exists 0. cbn. repeat split; try reflexivity; try lia; discriminate.
  - rewrite seq_S, fold_left_app. cbn [fold_left Nat.add].
    set (s := fold_left (seg_step minIt lf stop) (seq 0 n) (mkSched [] [] false)) in *.
    unfold seg_step. destruct (finished s) eqn:E.
    + exists m. split; [lia|]. split; [exact Hc|]. split; [exact Hb|]. rewrite E. split; [discriminate|exact Ht].
    + specialize (Hf eq_refl). subst m. exists (S n). cbn [calls bound_iters finished].
      split; [lia|]. split; [rewrite Hc; rewrite <- (repeat_cons n lf); reflexivity|].
      split; [rewrite Hb, seq_S, map_app; reflexivity|]. split; [reflexivity|].
      intros H. apply andb_prop in H as [H H3]. apply andb_prop in H as [H1 H2].
      rewrite app_length, Hb, map_length, seq_length in H1. cbn [length] in H1.
      rewrite last_last in H2. replace (S n - 1) with n by lia. split; [lia|]. split; [lia|exact H3].
Qed.

Lemma sumZ_repeat x n : sumZ (repeat x n) = (Z.of_nat n * x)%Z.
Proof. induction n; cbn [repeat sumZ]; [lia|]. rewrite IHn. lia. Qed.
