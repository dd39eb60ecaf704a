(** * Proofs about the splits of PartModel. *)
From Coq Require Import List ZArith QArith Qabs Qround Arith Bool Lia Lqa Permutation Sorted.
From Verif Require Import Base SparseModel SparseProofs DatasetModel DatasetMore PartModel PartSpec.
Import ListNotations.
Open Scope nat_scope.

(** ** Rounding *)
Lemma around_spec q : nearest_even q (around q).
Proof.
  unfold around, nearest_even.
  pose proof (Qfloor_le q) as H1. pose proof (Qlt_floor q) as H2.
  rewrite inject_Z_plus in H2. change (inject_Z 1) with 1%Q in H2.
  remember (Qfloor q) as f eqn:Ef. clear Ef.
  destruct (Qcompare_spec (q - inject_Z f) (1#2)) as [E|E|E].
  - destruct (Z.even f) eqn:Ev.
    + split; [|auto]. apply Qabs_Qle_condition. lra.
    + split.
      * rewrite inject_Z_plus. change (inject_Z 1) with 1%Q. apply Qabs_Qle_condition. lra.
      * intros _. rewrite Z.even_add, Ev. reflexivity.
  - split; [apply Qabs_Qle_condition; lra|].
    intros X. exfalso. rewrite Qabs_pos in X; lra.
  - rewrite inject_Z_plus. change (inject_Z 1) with 1%Q. split; [apply Qabs_Qle_condition; lra|].
    intros X. exfalso. rewrite Qabs_neg in X; lra.
Qed.

Lemma around_nonneg q : (0 <= around q)%Z <-> (-(1#2) <= q)%Q.
Proof.
  destruct (around_spec q) as [H E]. apply Qabs_Qle_condition in H as [H1 H2].
  split; intros X.
  - assert (inject_Z 0 <= inject_Z (around q))%Q by (rewrite <- Zle_Qle; exact X).
    change (inject_Z 0) with 0%Q in *. lra.
  - destruct (Z_lt_le_dec (around q) 0) as [L|]; [|assumption]. exfalso.
    assert (around q <= -1)%Z as L' by lia. rewrite Zle_Qle in L'.
    change (inject_Z (-1)) with (-(1))%Q in L'.
    assert (inject_Z (around q) == -(1))%Q as Ea by lra.
    assert (around q = -1)%Z as Ez.
    { apply inject_Z_injective. rewrite Ea. reflexivity. }
    rewrite Ez in E. assert (Z.even (-1) = true); [|discriminate]. apply E.
    rewrite Qabs_pos; change (inject_Z (-1)) with (-(1))%Q; lra.
Qed.

Lemma around_le q v : (around q <= v)%Z <->
  (q < inject_Z v + (1#2) \/ (q == inject_Z v + (1#2) /\ Z.even v = true))%Q.
Proof.
  destruct (around_spec q) as [H E]. apply Qabs_Qle_condition in H as [H1 H2].
  split; intros X.
  - rewrite Zle_Qle in X.
    destruct (Qlt_le_dec q (inject_Z v + (1#2))) as [L|L]; [left; exact L|right].
    assert (inject_Z (around q) == inject_Z v)%Q as Ea by lra.
    assert (around q = v) as Ez by (apply inject_Z_injective; exact Ea). split; [lra|].
    rewrite <- Ez. apply E. rewrite Qabs_pos; lra.
  - destruct (Z_lt_le_dec v (around q)) as [L|]; [|assumption]. exfalso.
    assert (v + 1 <= around q)%Z as L' by lia. rewrite Zle_Qle, inject_Z_plus in L'.
    change (inject_Z 1) with 1%Q in L'.
    destruct X as [X|[X Ev]]; [lra|].
    assert (inject_Z (around q) == inject_Z (v+1))%Q as Ea.
    { rewrite inject_Z_plus. change (inject_Z 1) with 1%Q. lra. }
    assert (around q = v + 1)%Z as Ez by (apply inject_Z_injective; exact Ea). rewrite Ez in E.
    assert (Z.even (v + 1) = true) as Ev'.
    { apply E. rewrite inject_Z_plus. change (inject_Z 1) with 1%Q. rewrite Qabs_neg; lra. }
    rewrite Z.even_add, Ev in Ev'. discriminate.
Qed.

(** ** Document completion *)
Lemma complete_row_nth p jit r : forall n k c v,
  nth_error r k = Some (c, v) ->
  let '(a, b) := complete_row p jit n r in
  let e := around ((inject_Z v + jit (n + k)%nat) * p)%Q in
  nth_error a k = Some (c, e) /\ nth_error b k = Some (c, (v - e)%Z).
Proof.
  induction r as [|[c0 v0] r IH]; intros n [|k] c v H; simpl in H; try discriminate.
  - injection H as -> ->. simpl. destruct (complete_row p jit (S n) r). simpl.
    rewrite Nat.add_0_r. auto.
  - simpl. specialize (IH (S n) k c v H). destruct (complete_row p jit (S n) r).
    simpl. rewrite <- Nat.add_succ_comm. exact IH.
Qed.

Lemma complete_row_len p jit r : forall n,
  length (fst (complete_row p jit n r)) = length r /\ length (snd (complete_row p jit n r)) = length r.
Proof.
  induction r as [|[c v] r IH]; intros n; simpl; [auto|].
  specialize (IH (S n)). destruct (complete_row p jit (S n) r). simpl in *. lia.
Qed.

Lemma complete_row_sget p jit r c : forall n,
  (sget (fst (complete_row p jit n r)) c + sget (snd (complete_row p jit n r)) c = sget r c)%Z.
Proof.
  induction r as [|[c0 v] r IH]; intros n; simpl; [reflexivity|].
  specialize (IH (S n)). destruct (complete_row p jit (S n) r) as [a b]. simpl in *.
  rewrite !sget_cons. cbn [fst snd]. destruct (c0 =? c); lia.
Qed.

Lemma complete_rows_nth p jit rs : forall n i r,
  nth_error rs i = Some r ->
  let m := n + length (concat (firstn i rs)) in
  nth_error (fst (complete_rows_from p jit n rs)) i = Some (fst (complete_row p jit m r)) /\
  nth_error (snd (complete_rows_from p jit n rs)) i = Some (snd (complete_row p jit m r)).
Proof.
  induction rs as [|r0 rs IH]; intros n [|i] r H; simpl in H; try discriminate.
  - injection H as ->. cbn. rewrite Nat.add_0_r.
    destruct (complete_row p jit n r), (complete_rows_from p jit (n + length r) rs). auto.
  - cbn. specialize (IH (n + length r0) i r H). cbn in IH.
    destruct (complete_row p jit n r0) as [a b].
    destruct (complete_rows_from p jit (n + length r0) rs) as [xs ys]. cbn in *.
    rewrite app_length, Nat.add_assoc. exact IH.
Qed.

Lemma complete_rows_len p jit rs : forall n,
  length (fst (complete_rows_from p jit n rs)) = length rs /\
  length (snd (complete_rows_from p jit n rs)) = length rs.
Proof.
  induction rs as [|r rs IH]; intros n; simpl; [auto|].
  destruct (complete_row p jit n r). specialize (IH (n + length r)).
  destruct (complete_rows_from p jit (n + length r) rs). simpl in *. lia.
Qed.

Lemma complete_rows_mget p jit rs cols i j :
  (mget (mkS (fst (complete_rows_from p jit 0 rs)) cols) i j
   + mget (mkS (snd (complete_rows_from p jit 0 rs)) cols) i j = mget (mkS rs cols) i j)%Z.
Proof.
  unfold mget. cbn [srows]. destruct (nth_error rs i) as [r|] eqn:E.
  - destruct (complete_rows_nth p jit rs 0 i r E) as [-> ->]. apply complete_row_sget.
  - apply nth_error_None in E. pose proof (complete_rows_len p jit rs 0) as [L1 L2].
    rewrite (proj2 (nth_error_None _ _)) by lia. rewrite (proj2 (nth_error_None _ _)) by lia.
    reflexivity.
Qed.

Lemma construct_consistent w f l d c : consistent (mkDS w f l d c []) ->
  construct w f l d c None 0 = Ok (mkDS w f l d c (seq 0 (nrows w))).
Proof.
  intros (H1 & H2 & H3 & H4). unfold construct. cbn [words feats links cats] in *.
  rewrite (proj2 (Nat.ltb_lt 0 (nrows w)) H1). cbn [assert_ bind].
  replace (opt_len_ok (option_map (fun f0 => length (frows f0)) f) (nrows w)) with true
    by (destruct f; cbn; [rewrite H2, Nat.eqb_refl|]; reflexivity).
  replace (opt_len_ok (option_map nrows l) (nrows w)) with true
    by (destruct l; cbn; [rewrite H3, Nat.eqb_refl|]; reflexivity).
  replace (opt_len_ok (cats_len c) (nrows w)) with true
    by (destruct c; cbn; rewrite ?H4, ?Nat.eqb_refl; reflexivity).
  reflexivity.
Qed.

Lemma construct_fields w f l d c o n ds : construct w f l d c o n = Ok ds ->
  words ds = w /\ feats ds = f /\ links ds = l /\ dict ds = d /\ cats ds = c.
Proof.
  unfold construct. intros H.
  repeat (apply bind_ok in H as ([] & _ & H)). injection H as <-. cbn. auto.
Qed.

Lemma good_rows_In w mu i : In i (good_rows w mu) <-> enough_in w mu i.
Proof.
  unfold good_rows, enough_in. rewrite where_In.
  split; intros (r & H & E); exists r; split; auto; unfold ge_q, row_nnz in *;
    apply Qle_bool_iff; exact E.
Qed.

Lemma full_length l n : NoDup l -> incl l (seq 0 n) ->
  (length l = n <-> forall i, i < n -> In i l).
Proof.
  intros Hnd Hin. split.
  - intros HL i Hi. assert (incl (seq 0 n) l) as G.
    { apply NoDup_length_incl; auto. rewrite seq_length. lia. }
    apply G, in_seq. lia.
  - intros H. pose proof (NoDup_incl_length Hnd Hin) as L1. rewrite seq_length in L1.
    assert (incl (seq 0 n) l) as Hin2 by (intros x Hx; apply in_seq in Hx; apply H; lia).
    pose proof (NoDup_incl_length (seq_NoDup n 0) Hin2) as L2. rewrite seq_length in L2. lia.
Qed.

Lemma all_good (wt wq : smat) mu : nrows wt = nrows wq ->
  (length (filter (fun i => existsb (Nat.eqb i) (good_rows wq mu)) (good_rows wt mu)) = nrows wt
   <-> forall i, i < nrows wt -> enough_in wt mu i /\ enough_in wq mu i).
Proof.
  intros HL. rewrite full_length.
  - split; intros H i Hi; specialize (H i Hi).
    + apply filter_In in H as [H1 H2]. rewrite good_rows_In in H1.
      apply existsb_exists in H2 as (x & Hx & E). apply Nat.eqb_eq in E as <-.
      rewrite good_rows_In in Hx. auto.
    + destruct H as [H1 H2]. apply filter_In. rewrite good_rows_In. split; auto.
      apply existsb_exists. exists i. rewrite good_rows_In, Nat.eqb_refl. auto.
  - apply NoDup_filter, where_NoDup.
  - intros x Hx. apply filter_In in Hx as [Hx _]. apply good_rows_In in Hx as (r & Hr & _).
    apply in_seq. split; [lia|]. simpl. apply nth_error_Some. congruence.
Qed.

(** The two word matrices that a split computes. *)
Definition est_words p jit ds :=
  mkS (fst (complete_rows_from p jit 0 (srows (words ds)))) (scols (words ds)).
Definition evl_words p jit ds :=
  mkS (snd (complete_rows_from p jit 0 (srows (words ds)))) (scols (words ds)).

Lemma completion_ok mu jit p ds a b : feats ds = None ->
  doc_completion_split mu jit p ds = Ok (a, b) ->
  words a = est_words p jit ds /\ words b = evl_words p jit ds /\
  same_side_data a ds /\ same_side_data b ds.
Proof.
  intros Hf H. unfold doc_completion_split in H. rewrite Hf in H.
  unfold est_words, evl_words.
  destruct (complete_rows_from p jit 0 (srows (words ds))) as [tr qu]. cbn [fst snd].
  destruct (_ && _); [discriminate|].
  apply bind_ok in H as (a' & Ha & H). apply bind_ok in H as (b' & Hb & [= <- <-]).
  apply construct_fields in Ha, Hb. unfold same_side_data. rewrite Hf. tauto.
Qed.

Lemma completion_runs mu jit p ds : feats ds = None -> consistent ds ->
  ((mu <= 0)%Q \/ (forall i, i < nrows (words ds) ->
                   enough_in (est_words p jit ds) mu i /\ enough_in (evl_words p jit ds) mu i)) ->
  exists a b, doc_completion_split mu jit p ds = Ok (a, b).
Proof.
  intros Hf Hc Hmu. unfold doc_completion_split. rewrite Hf.
  pose proof (all_good (est_words p jit ds) (evl_words p jit ds) mu) as HG.
  pose proof (complete_rows_len p jit (srows (words ds)) 0) as [L1 L2].
  unfold est_words, evl_words in *.
  destruct (complete_rows_from p jit 0 (srows (words ds))) as [tr qu]. cbn [fst snd] in *.
  match goal with |- context [if ?c then _ else _] => replace c with false end.
  - rewrite construct_consistent, construct_consistent; cbn.
    + eauto.
    + unfold consistent in *. cbn. unfold nrows in *. cbn. rewrite Hf in Hc. rewrite L2. tauto.
    + unfold consistent in *. cbn. unfold nrows in *. cbn. rewrite Hf in Hc. rewrite L1. tauto.
  - symmetry. apply andb_false_iff. destruct Hmu as [Hmu|Hmu].
    + left. apply negb_false_iff, Qle_bool_iff. exact Hmu.
    + right. apply negb_false_iff, Nat.eqb_eq. apply HG; unfold nrows in *; cbn in *; [lia|].
      intros i Hi. apply Hmu. lia.
Qed.

Lemma completion_raises mu jit p ds i : feats ds = None -> (0 < mu)%Q -> i < nrows (words ds) ->
  ~ (enough_in (est_words p jit ds) mu i /\ enough_in (evl_words p jit ds) mu i) ->
  doc_completion_split mu jit p ds = Raise TypeError.
Proof.
  intros Hf Hmu Hi Hn. unfold doc_completion_split. rewrite Hf.
  pose proof (all_good (est_words p jit ds) (evl_words p jit ds) mu) as HG.
  pose proof (complete_rows_len p jit (srows (words ds)) 0) as [L1 L2].
  unfold est_words, evl_words in *.
  destruct (complete_rows_from p jit 0 (srows (words ds))) as [tr qu]. cbn [fst snd] in *.
  match goal with |- context [if ?c then _ else _] => replace c with true end; [reflexivity|].
  symmetry. apply andb_true_iff. split.
  - apply negb_true_iff. destruct (Qle_bool mu 0) eqn:E; [|reflexivity].
    apply Qle_bool_iff in E. lra.
  - apply negb_true_iff, Nat.eqb_neq. intros E. pose proof (proj1 (HG ltac:(unfold nrows; cbn; lia)) E) as E'.
    apply Hn, E'. unfold nrows in *. cbn. lia.
Qed.
