(** * Proofs about dropping columns, soft splits and splits on a feature. *)
From Coq Require Import List ZArith QArith Arith Bool Lia Permutation Sorted.
From Verif Require Import Base SparseModel SparseProofs DatasetModel DatasetMore PartModel PartSpec PartProofs PartLinks.
Import ListNotations.
Open Scope nat_scope.

Lemma existsb_eqb c l : existsb (Nat.eqb c) l = true <-> In c l.
Proof.
  rewrite existsb_exists. split.
  - intros (x & H & E). apply Nat.eqb_eq in E as ->. exact H.
  - intros H. exists c. rewrite Nat.eqb_refl. auto.
Qed.

Lemma existsb_eqb_false c l : existsb (Nat.eqb c) l = false <-> ~ In c l.
Proof. rewrite <- existsb_eqb. destruct (existsb _ _); split; congruence. Qed.

(** ** Columns *)
Lemma unique_In l c : In c (unique l) <-> In c l.
Proof.
  unfold unique, unique_below. rewrite filter_In, existsb_eqb, in_seq. split; [tauto|].
  intros H. split; [|exact H]. pose proof (proj1 (list_max_le l (list_max l)) (le_n _)) as G.
  rewrite Forall_forall in G. specialize (G c H). lia.
Qed.

Lemma unique_NoDup l : NoDup (unique l).
Proof. apply NoDup_filter, seq_NoDup. Qed.

Definition kept (n : nat) (drop : list nat) : list nat :=
  filter (fun c => negb (existsb (Nat.eqb c) (unique drop))) (seq 0 n).

Lemma kept_In n drop c : In c (kept n drop) <-> c < n /\ ~ In c drop.
Proof.
  unfold kept. rewrite filter_In, in_seq, negb_true_iff, existsb_eqb_false, unique_In. intuition lia.
Qed.

Lemma sorted_filter {A} (R : A -> A -> Prop) p l : StronglySorted R l -> StronglySorted R (filter p l).
Proof.
  induction 1 as [|a l H IH Ha]; simpl; [constructor|]. destruct (p a); auto. constructor; auto.
  apply Forall_forall. intros x Hx. apply filter_In in Hx as [Hx _]. rewrite Forall_forall in Ha. auto.
Qed.

Lemma sorted_seq k n : StronglySorted lt (seq k n).
Proof.
  revert k; induction n as [|n IH]; intros k; simpl; constructor; auto.
  apply Forall_forall. intros x Hx. apply in_seq in Hx. lia.
Qed.

Lemma kept_sorted n drop : StronglySorted lt (kept n drop).
Proof. apply sorted_filter, sorted_seq. Qed.

Lemma kept_NoDup n drop : NoDup (kept n drop).
Proof. apply NoDup_filter, seq_NoDup. Qed.

Lemma filter_split_len {A} (p : A -> bool) l :
  length (filter p l) + length (filter (fun x => negb (p x)) l) = length l.
Proof. induction l as [|a l IH]; simpl; auto. destruct (p a); simpl; lia. Qed.

Lemma same_set_length (l r : list nat) : NoDup l -> NoDup r -> (forall x, In x l <-> In x r) -> length l = length r.
Proof. intros H1 H2 H. apply Permutation_length, NoDup_Permutation; auto. Qed.

Lemma dropped_below n drop : 
  length (filter (fun d => d <? n) (unique drop)) = length (filter (fun c => existsb (Nat.eqb c) (unique drop)) (seq 0 n)).
Proof.
  apply same_set_length.
  - apply NoDup_filter, unique_NoDup.
  - apply NoDup_filter, seq_NoDup.
  - intros x. rewrite !filter_In, Nat.ltb_lt, existsb_eqb, in_seq. intuition lia.
Qed.

Lemma kept_len_below n drop : length (kept n drop) = n - length (filter (fun d => d <? n) (unique drop)).
Proof.
  rewrite dropped_below. unfold kept.
  pose proof (filter_split_len (fun c => existsb (Nat.eqb c) (unique drop)) (seq 0 n)) as H.
  rewrite seq_length in H. lia.
Qed.

Lemma kept_at n drop c : c < n -> ~ In c drop ->
  nth_error (kept n drop) (c - length (filter (fun d => d <? c) (unique drop))) = Some c.
Proof.
  intros Hc Hn. rewrite <- kept_len_below. unfold kept.
  replace n with (c + S (n - S c)) at 1 by lia. rewrite seq_app, filter_app.
  rewrite nth_error_app2 by lia. rewrite Nat.sub_diag. cbn [seq filter Nat.add].
  replace (negb _) with true; [reflexivity|]. symmetry. apply negb_true_iff, existsb_eqb_false.
  rewrite unique_In. exact Hn.
Qed.

Lemma positions_single order c j : NoDup order -> nth_error order j = Some c -> positions order c = [j].
Proof.
  intros Hnd Hj. pose proof (positions_NoDup order c) as Hp.
  assert (H : forall i, In i (positions order c) <-> i = j).
  { intros i. rewrite in_positions. split; [|congruence]. intros Hi.
    apply (proj1 (NoDup_nth_error order) Hnd); [apply nth_error_Some; congruence|congruence]. }
  destruct (positions order c) as [|a [|b l]].
  - exfalso. apply (proj2 (H j) eq_refl).
  - f_equal. apply H. left. reflexivity.
  - exfalso. assert (a = j) by (apply H; left; auto). assert (b = j) by (apply H; right; left; auto).
    subst. inversion Hp; subst. apply H2. left. auto.
Qed.

Lemma positions_none order c : ~ In c order -> positions order c = [].
Proof.
  intros H. destruct (positions order c) as [|a l] eqn:E; [reflexivity|]. exfalso. apply H.
  assert (In a (positions order c)) as Ha by (rewrite E; left; auto).
  apply in_positions in Ha. eapply nth_error_In; eauto.
Qed.

Lemma drop_row n drop r : Forall (fun e => fst e < n) r ->
  select_cols_row (kept n drop) r
  = map (fun e => (fst e - length (filter (fun d => d <? fst e) (unique drop)), snd e))
        (filter (fun e => negb (existsb (Nat.eqb (fst e)) (unique drop))) r).
Proof.
  induction 1 as [|[c v] r Hc _ IH]; [reflexivity|].
  cbn [select_cols_row flat_map]. change (flat_map _ r) with (select_cols_row (kept n drop) r).
  rewrite IH. cbn [fst snd filter] in *. destruct (existsb (Nat.eqb c) (unique drop)) eqn:E.
  - apply existsb_eqb in E. rewrite unique_In in E.
    rewrite positions_none by (rewrite kept_In; tauto). reflexivity.
  - apply existsb_eqb_false in E. rewrite unique_In in E.
    erewrite positions_single; [|apply kept_NoDup|apply kept_at; eauto]. reflexivity.
Qed.

Lemma drop_fancy_ok M drop : dropcols_fancy M drop
  = Ok (mkS (map (select_cols_row (kept (scols M) drop)) (srows M)) (length (kept (scols M) drop))).
Proof.
  unfold dropcols_fancy. fold (kept (scols M) drop). unfold select_cols.
  replace (forallb _ _) with true; [reflexivity|]. symmetry. apply forallb_forall.
  intros c Hc. apply kept_In in Hc. apply Nat.ltb_lt. tauto.
Qed.

Lemma filter_all {A} (p : A -> bool) l : (forall x, In x l -> p x = true) -> filter p l = l.
Proof. induction l as [|a l IH]; intros H; simpl; auto. rewrite (H a) by (left; auto). f_equal. apply IH. intros; apply H; right; auto. Qed.

Lemma drop_agree M drop : swf M -> Forall (fun c => c < scols M) drop ->
  dropcols_coo M drop = dropcols_fancy M drop.
Proof.
  intros HM Hd. rewrite drop_fancy_ok. unfold dropcols_coo.
  assert (Hall : filter (fun d => d <? scols M) (unique drop) = unique drop).
  { apply filter_all. intros x Hx. rewrite unique_In in Hx. rewrite Forall_forall in Hd.
    apply Nat.ltb_lt. auto. }
  assert (HL : length (unique drop) <= scols M).
  { rewrite <- Hall, dropped_below. etransitivity; [apply filter_len_le|]. rewrite seq_length. lia. }
  rewrite (proj2 (Nat.ltb_ge _ _) HL). do 2 f_equal.
  - apply map_ext_in. intros r Hr. symmetry. apply drop_row. unfold swf in HM.
    rewrite Forall_forall in HM. auto.
  - rewrite kept_len_below, Hall. reflexivity.
Qed.

(** ** Soft split *)
Lemma soft_row_sum cols draw p r c : forall k,
  let '(a, b, _) := soft_row cols draw p k r in (sget a c + sget b c = sget r c)%Z.
Proof.
  induction r as [|[c0 v] r IH]; intros k; [reflexivity|]. cbn [soft_row].
  destruct (soft_move cols draw p k c0) as [mv k'].
  specialize (IH k'). destruct (soft_row cols draw p k' r) as [[a b] k'']; cbv beta iota in IH |- *.
  rewrite !sget_cons. cbn [fst snd]. destruct (c0 =? c), mv; lia.
Qed.

Lemma soft_row_fst cols draw p r : forall k,
  let '(a, b, _) := soft_row cols draw p k r in map fst a = map fst r /\ map fst b = map fst r.
Proof.
  induction r as [|[c0 v] r IH]; intros k; [split; reflexivity|]. cbn [soft_row].
  destruct (soft_move cols draw p k c0) as [mv k'].
  specialize (IH k'). destruct (soft_row cols draw p k' r) as [[a b] k''].
  cbn. destruct IH as [-> ->]. auto.
Qed.

Lemma soft_row_right cols draw p r c : ~ In c cols -> forall k,
  let '(a, b, _) := soft_row cols draw p k r in sget b c = 0%Z.
Proof.
  intros Hc. induction r as [|[c0 v] r IH]; intros k; [reflexivity|]. cbn [soft_row].
  destruct (Nat.eq_dec c0 c) as [->|Hne].
  - replace (soft_move cols draw p k c) with (false, k).
    2:{ unfold soft_move. rewrite (proj2 (existsb_eqb_false c cols) Hc). destruct (Qle_bool _ _); reflexivity. }
    specialize (IH k). destruct (soft_row cols draw p k r) as [[a b] k'']; cbv beta iota in IH |- *.
    rewrite sget_cons. cbn [fst snd]. destruct (c =? c); lia.
  - destruct (soft_move cols draw p k c0) as [mv k'].
    specialize (IH k'). destruct (soft_row cols draw p k' r) as [[a b] k'']; cbv beta iota in IH |- *.
    rewrite sget_cons. cbn [fst snd]. rewrite (proj2 (Nat.eqb_neq _ _) Hne). lia.
Qed.

Lemma soft_row_all cols draw p r c : In c cols -> (cutoff <= p)%Q -> forall k,
  let '(a, b, _) := soft_row cols draw p k r in sget a c = 0%Z.
Proof.
  intros Hc Hp. apply Qle_bool_iff in Hp.
  induction r as [|[c0 v] r IH]; intros k; [reflexivity|]. cbn [soft_row]. unfold soft_move. rewrite Hp.
  specialize (IH k). destruct (soft_row cols draw p k r) as [[a b] k'']; cbv beta iota in IH |- *.
  rewrite sget_cons. cbn [fst snd]. destruct (Nat.eqb_spec c0 c) as [->|]; [|lia].
  rewrite (proj2 (existsb_eqb c cols) Hc). lia.
Qed.

Lemma soft_row_disjoint cols draw p r c : NoDup (map fst r) -> forall k,
  let '(a, b, _) := soft_row cols draw p k r in sget a c = 0%Z \/ sget b c = 0%Z.
Proof.
  induction r as [|[c0 v] r IH]; intros Hnd k; [left; reflexivity|]. cbn [soft_row].
  inversion Hnd as [|? ? Hc0 Hnd']; subst.
  destruct (soft_move cols draw p k c0) as [mv k'].
  specialize (IH Hnd' k'). pose proof (soft_row_fst cols draw p r k') as HF.
  destruct (soft_row cols draw p k' r) as [[a b] k'']. destruct HF as [Fa Fb].
  rewrite !sget_cons. cbn [fst snd]. destruct (Nat.eqb_spec c0 c) as [->|].
  - cbn in Hc0. rewrite (sget_absent a) by (rewrite Fa; auto). rewrite (sget_absent b) by (rewrite Fb; auto).
    destruct mv; [left|right]; lia.
  - destruct IH; [left|right]; lia.
Qed.

(** How many draws a row uses, and which one decides an entry. *)
Definition selected (cols : list nat) (es : list (nat * Z)) : nat :=
  length (filter (fun e => existsb (Nat.eqb (fst e)) cols) es).

Lemma soft_row_draws cols draw p r : (p < cutoff)%Q -> forall k,
  snd (soft_row cols draw p k r) = k + selected cols r.
Proof.
  intros Hp. assert (Qle_bool cutoff p = false) as Hb.
  { destruct (Qle_bool cutoff p) eqn:E; [|reflexivity]. apply Qle_bool_iff in E.
    exfalso. apply (Qlt_not_le _ _ Hp E). }
  induction r as [|[c v] r IH]; intros k; [cbn; lia|]. cbn [soft_row]. unfold soft_move. rewrite Hb.
  unfold selected in *. cbn [filter fst]. destruct (existsb (Nat.eqb c) cols).
  - specialize (IH (S k)). destruct (soft_row cols draw p (S k) r) as [[a b] k'']. cbn in *. lia.
  - specialize (IH k). destruct (soft_row cols draw p k r) as [[a b] k'']. cbn in *. lia.
Qed.

Lemma soft_row_decide cols draw p r c v q : (p < cutoff)%Q -> NoDup (map fst r) -> In c cols ->
  nth_error r q = Some (c, v) -> forall k,
  sget (snd (fst (soft_row cols draw p k r))) c
  = if Qlt_bool (draw (k + selected cols (firstn q r))) p then v else 0%Z.
Proof.
  intros Hp. assert (Qle_bool cutoff p = false) as Hb.
  { destruct (Qle_bool cutoff p) eqn:E; [|reflexivity]. apply Qle_bool_iff in E.
    exfalso. apply (Qlt_not_le _ _ Hp E). }
  intros Hnd Hc. revert q. induction r as [|[c0 v0] r IH]; intros q Hq k; [destruct q; discriminate|].
  inversion Hnd as [|? ? Hc0 Hnd']; subst. cbn [soft_row]. unfold soft_move. rewrite Hb.
  destruct q as [|q]; cbn in Hq.
  - injection Hq as -> ->. rewrite (proj2 (existsb_eqb c cols) Hc).
    pose proof (soft_row_fst cols draw p r (S k)) as HF.
    destruct (soft_row cols draw p (S k) r) as [[a b] k'']. destruct HF as [_ Fb]. cbn [fst snd].
    rewrite sget_cons, sget_absent by (rewrite Fb; exact Hc0). cbn [fst snd firstn].
    rewrite Nat.eqb_refl. unfold selected. cbn [filter length]. rewrite Nat.add_0_r. lia.
  - assert (c0 <> c) as Hne.
    { intros ->. apply Hc0. cbn. apply nth_error_In in Hq. apply in_map with (f := fst) in Hq. exact Hq. }
    unfold selected in *. cbn [firstn filter fst]. destruct (existsb (Nat.eqb c0) cols).
    + specialize (IH Hnd' q Hq (S k)). destruct (soft_row cols draw p (S k) r) as [[a b] k''].
      cbn [fst snd] in *. rewrite sget_cons. cbn [fst snd length].
      rewrite (proj2 (Nat.eqb_neq _ _) Hne). rewrite IH. replace (k + S _) with (S k + length (filter (fun e => existsb (Nat.eqb (fst e)) cols) (firstn q r))) by lia. lia.
    + specialize (IH Hnd' q Hq k). destruct (soft_row cols draw p k r) as [[a b] k''].
      cbn [fst snd] in *. rewrite sget_cons. cbn [fst snd].
      rewrite (proj2 (Nat.eqb_neq _ _) Hne). rewrite IH. lia.
Qed.

(** The state before row [i]. *)
Lemma soft_rows_nth cols draw p rs : forall i r k, nth_error rs i = Some r -> exists k',
  let '(a, b) := soft_rows cols draw p k rs in
  nth_error a i = Some (fst (fst (soft_row cols draw p k' r))) /\
  nth_error b i = Some (snd (fst (soft_row cols draw p k' r))) /\
  ((p < cutoff)%Q -> k' = k + selected cols (concat (firstn i rs))).
Proof.
  induction rs as [|r0 rs IH]; intros [|i] r k H; simpl in H; try discriminate.
  - injection H as ->. exists k. cbn [soft_rows].
    destruct (soft_row cols draw p k r) as [[a b] k1]. destruct (soft_rows cols draw p k1 rs).
    cbn. repeat split; auto.
  - cbn [soft_rows]. pose proof (soft_row_draws cols draw p r0) as HD.
    destruct (soft_row cols draw p k r0) as [[a b] k1] eqn:E. destruct (IH i r k1 H) as (k' & Hk').
    exists k'. destruct (soft_rows cols draw p k1 rs). cbn [nth_error firstn concat].
    destruct Hk' as (H1 & H2 & H3). repeat split; auto. intros Hp. rewrite (H3 Hp).
    specialize (HD Hp k). rewrite E in HD. cbn in HD. rewrite HD. unfold selected.
    rewrite filter_app, app_length. lia.
Qed.

Lemma soft_rows_len cols draw p rs : forall k,
  let '(a, b) := soft_rows cols draw p k rs in length a = length rs /\ length b = length rs.
Proof.
  induction rs as [|r rs IH]; intros k; [split; reflexivity|]. cbn [soft_rows].
  destruct (soft_row cols draw p k r) as [[a b] k1]. specialize (IH k1).
  destruct (soft_rows cols draw p k1 rs). cbn. lia.
Qed.

Lemma soft_split_row cols draw p M L R i : soft_split cols draw p M = (L, R) ->
  nrows L = nrows M /\ nrows R = nrows M /\ scols L = scols M /\ scols R = scols M /\
  match nth_error (srows M) i with
  | None => forall j, mget L i j = 0%Z /\ mget R i j = 0%Z
  | Some r => exists k,
     (forall j, mget L i j = sget (fst (fst (soft_row cols draw p k r))) j /\
                mget R i j = sget (snd (fst (soft_row cols draw p k r))) j) /\
     ((p < cutoff)%Q -> k = selected cols (concat (firstn i (srows M))))
  end.
Proof.
  unfold soft_split. pose proof (soft_rows_len cols draw p (srows M) 0) as HL.
  pose proof (soft_rows_nth cols draw p (srows M) i) as HN.
  destruct (soft_rows cols draw p 0 (srows M)) as [a b] eqn:E. intros [= <- <-].
  unfold nrows, mget. cbn [srows scols]. unfold eliminate_zeros. rewrite !map_length.
  destruct HL as [-> ->]. repeat (split; [reflexivity|]).
  destruct (nth_error (srows M) i) as [r|] eqn:Er.
  - destruct (HN r 0 eq_refl) as (k & Hk). rewrite E in Hk. destruct Hk as (H1 & H2 & H3).
    exists k. split; [|exact H3]. intros j. rewrite !nth_error_map, H1, H2. cbn.
    rewrite !sget_filter_nz. auto.
  - apply nth_error_None in Er. pose proof (soft_rows_len cols draw p (srows M) 0) as HL.
    rewrite E in HL. intros j. rewrite !nth_error_map.
    rewrite (proj2 (nth_error_None a i)) by lia. rewrite (proj2 (nth_error_None b i)) by lia. auto.
Qed.

Lemma soft_split_stored cols draw p M L R : soft_split cols draw p M = (L, R) ->
  forall i j v, (entry L i j = Some v \/ entry R i j = Some v) -> snd v <> 0%Z.
Proof.
  unfold soft_split. destruct (soft_rows cols draw p 0 (srows M)) as [a b]. intros [= <- <-].
  intros i j v. unfold entry. cbn [srows]. unfold eliminate_zeros. rewrite !nth_error_map.
  assert (G : forall l : list (list (nat * Z)), match option_map (filter (fun e => negb (snd e =? 0)%Z)) (nth_error l i) with
       | Some r => nth_error r j | None => None end = Some v -> snd v <> 0%Z).
  { intros l. destruct (nth_error l i) as [r|]; cbn; [|discriminate]. intros H.
    apply nth_error_In in H. apply filter_In in H as [_ H]. lia. }
  intros [H|H]; eapply G; exact H.
Qed.
