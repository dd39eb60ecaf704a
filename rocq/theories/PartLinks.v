(** * Proofs about the folded link split and symmetric rebuilding. *)
From Coq Require Import List ZArith Arith Bool Lia Permutation.
From Verif Require Import Base SparseModel SparseProofs DatasetModel DatasetMore PartModel PartSpec.
Import ListNotations.
Open Scope nat_scope.

(** ** Slices *)
Lemma slice_length {A} (l : list A) a b : a <= b -> b <= length l -> length (slice l a b) = b - a.
Proof. intros. unfold slice. rewrite firstn_length, skipn_length. lia. Qed.

Lemma skipn_add {A} (l : list A) a b : skipn a (skipn b l) = skipn (b + a) l.
Proof. revert l; induction b; intros l; simpl; [reflexivity|]. destruct l; [rewrite skipn_nil; reflexivity|apply IHb]. Qed.

Lemma firstn_add {A} (l : list A) a b : firstn (a + b) l = firstn a l ++ firstn b (skipn a l).
Proof.
  revert l; induction a; intros l; simpl; [reflexivity|].
  destruct l; simpl; [rewrite firstn_nil; reflexivity|]. f_equal. apply IHa.
Qed.

Lemma slice_app {A} (l : list A) a b c : a <= b -> b <= c -> slice l a b ++ slice l b c = slice l a c.
Proof.
  intros. unfold slice. replace (c - a) with ((b - a) + (c - b)) by lia.
  rewrite firstn_add, skipn_add. do 3 f_equal. lia.
Qed.

Lemma slice_slice {A} (l : list A) s e a b : s + b <= e ->
  slice l (s + a) (s + b) = slice (slice l s e) a b.
Proof.
  intros. unfold slice. rewrite skipn_firstn_comm, firstn_firstn, skipn_add.
  f_equal; lia.
Qed.

Lemma skipn_combine {A B} (l : list A) (r : list B) n : skipn n (combine l r) = combine (skipn n l) (skipn n r).
Proof.
  revert l r; induction n; intros [|a l] [|b r]; simpl; auto.
  rewrite combine_nil. reflexivity.
Qed.

Lemma slice_combine {A B} (l : list A) (r : list B) a b :
  slice (combine l r) a b = combine (slice l a b) (slice r a b).
Proof. unfold slice. rewrite skipn_combine, combine_firstn. reflexivity. Qed.

Lemma combine_app' {A B} (l1 l2 : list A) (r1 r2 : list B) : length l1 = length r1 ->
  combine (l1 ++ l2) (r1 ++ r2) = combine l1 r1 ++ combine l2 r2.
Proof. revert r1; induction l1; intros [|b r1] H; simpl in *; try discriminate; auto. f_equal. auto. Qed.

(** ** Building a side from blocks *)
Definition block : Type := list nat * list Z.
Definition add_block (s : side) (b : block) : side := side_add s (fst b) (snd b) (length (fst b)).
Definition side0 : side := mkSide [0] [] [].
Definition side_of (bs : list block) : side := fold_left add_block bs side0.
Definition csr_of_side (s : side) cols : csr := mkCSR (rev (sptr s)) (sind s) (sdat s) cols.

Definition upto (bs : list block) (i : nat) : nat := length (concat (map fst (firstn i bs))).

Lemma side_of_snoc bs b : side_of (bs ++ [b]) = add_block (side_of bs) b.
Proof. unfold side_of. rewrite fold_left_app. reflexivity. Qed.

Lemma side_of_ind bs : sind (side_of bs) = concat (map fst bs).
Proof.
  induction bs as [|b bs IH] using rev_ind; [reflexivity|].
  rewrite side_of_snoc, map_app, concat_app. cbn. rewrite IH, app_nil_r. reflexivity.
Qed.

Lemma side_of_dat bs : sdat (side_of bs) = concat (map snd bs).
Proof.
  induction bs as [|b bs IH] using rev_ind; [reflexivity|].
  rewrite side_of_snoc, map_app, concat_app. cbn. rewrite IH, app_nil_r. reflexivity.
Qed.

Lemma upto_app bs cs i : i <= length bs -> upto (bs ++ cs) i = upto bs i.
Proof.
  intros. unfold upto. rewrite firstn_app. replace (i - length bs) with 0 by lia.
  simpl. rewrite app_nil_r. reflexivity.
Qed.

Lemma side_of_ptr bs : rev (sptr (side_of bs)) = map (upto bs) (seq 0 (S (length bs))).
Proof.
  induction bs as [|b bs IH] using rev_ind; [reflexivity|].
  rewrite side_of_snoc. cbn [add_block side_add sptr rev].
  rewrite IH. rewrite app_length, Nat.add_1_r.
  rewrite (seq_S (S (length bs)) 0), map_app. cbn [map Nat.add]. f_equal.
  - apply map_ext_in. intros i Hi. apply in_seq in Hi. symmetry. apply upto_app. lia.
  - f_equal.
    assert (HH : hd 0 (sptr (side_of bs)) = upto bs (length bs)).
    { apply (f_equal (@rev nat)) in IH. rewrite rev_involutive in IH. rewrite IH.
      rewrite seq_S, map_app, rev_app_distr. reflexivity. }
    rewrite HH. unfold upto. rewrite firstn_all, (firstn_all2 (n := S (length bs))) by (rewrite app_length; simpl; lia).
    rewrite map_app, concat_app, app_length. simpl. rewrite app_nil_r. reflexivity.
Qed.

Definition blocks_ok (bs : list block) : Prop := Forall (fun b => length (fst b) = length (snd b)) bs.

Lemma concat_slice {A} (ls : list (list A)) i l : nth_error ls i = Some l ->
  slice (concat ls) (length (concat (firstn i ls))) (length (concat (firstn (S i) ls))) = l.
Proof.
  revert i; induction ls as [|l0 ls IH]; intros [|i] H; simpl in H; try discriminate.
  - injection H as ->. simpl. unfold slice. rewrite app_nil_r, Nat.sub_0_r. simpl.
    rewrite firstn_app, firstn_all, Nat.sub_diag. simpl. apply app_nil_r.
  - cbn [concat firstn]. rewrite !app_length. specialize (IH i H). unfold slice in *.
    rewrite skipn_app. rewrite (skipn_all2 (n := length l0 + _)) by lia. cbn [app].
    replace (length l0 + length (concat (firstn i ls)) - length l0) with (length (concat (firstn i ls))) by lia.
    etransitivity; [|exact IH]. f_equal. cbn [firstn concat]. lia.
Qed.

Lemma upto_snd bs i : blocks_ok bs -> upto bs i = length (concat (map snd (firstn i bs))).
Proof.
  unfold upto. revert i; induction bs as [|b bs IH]; intros [|i] H; simpl; auto.
  inversion H; subst. rewrite !app_length, IH by assumption. lia.
Qed.

Lemma csr_of_side_row bs cols i b : blocks_ok bs -> nth_error bs i = Some b ->
  csr_row (csr_of_side (side_of bs) cols) i = combine (fst b) (snd b).
Proof.
  intros Hok H. unfold csr_row, csr_of_side. cbn [cptr cind cdat].
  rewrite side_of_ind, side_of_dat, side_of_ptr.
  assert (Hi : i < length bs) by (apply nth_error_Some; congruence).
  assert (Hn : forall k, k <= length bs -> nth k (map (upto bs) (seq 0 (S (length bs)))) 0 = upto bs k).
  { intros k Hk. rewrite nth_indep with (d' := upto bs 0) by (rewrite map_length, seq_length; lia).
    rewrite map_nth, seq_nth by lia. reflexivity. }
  rewrite !Hn by lia. f_equal.
  - unfold upto. rewrite <- !firstn_map. apply concat_slice. rewrite nth_error_map, H. reflexivity.
  - rewrite !upto_snd by assumption. rewrite <- !firstn_map. apply concat_slice.
    rewrite nth_error_map, H. reflexivity.
Qed.

Lemma csr_of_side_wf bs cols : blocks_ok bs -> Forall (fun b => Forall (fun c => c < cols) (fst b)) bs ->
  csr_wf (csr_of_side (side_of bs) cols) /\ crows (csr_of_side (side_of bs) cols) = length bs.
Proof.
  intros Hok Hc. unfold csr_wf, crows, csr_of_side. cbn [cptr cind cdat ccols].
  rewrite side_of_ind, side_of_dat, side_of_ptr. rewrite map_length, seq_length.
  split; [|lia]. split; [reflexivity|].
  assert (Hn : forall k, k <= length bs -> nth k (map (upto bs) (seq 0 (S (length bs)))) 0 = upto bs k).
  { intros k Hk. rewrite nth_indep with (d' := upto bs 0) by (rewrite map_length, seq_length; lia).
    rewrite map_nth, seq_nth by lia. reflexivity. }
  split; [|split; [|split]].
  - intros i Hi. rewrite !Hn by lia. unfold upto.
    replace (S i) with (i + 1) by lia. rewrite (firstn_add bs i 1), map_app, concat_app, app_length. apply Nat.le_add_r.
  - rewrite seq_S, map_app. cbn [map]. rewrite last_last. unfold upto. cbn [Nat.add].
    rewrite firstn_all. reflexivity.
  - pose proof (upto_snd bs (length bs) Hok) as E. unfold upto in E. rewrite firstn_all in E. exact E.
  - apply Forall_concat, Forall_map. exact Hc.
Qed.

(** ** The row loop *)
Definition lblock (X : csr) (f k m i : nat) : block :=
  let s := nth i (cptr X) 0 in
  let e := nth (i + 1) (cptr X) 0 in
  let q := (e - s) / k in
  if e - s <? m then (slice (cind X) s e, slice (cdat X) s e)
  else (slice (cind X) s (s + q * f) ++ slice (cind X) (s + q * f + q) e,
        slice (cdat X) s (s + q * f) ++ slice (cdat X) (s + q * f + q) e).
Definition rblock (X : csr) (f k m i : nat) : block :=
  let s := nth i (cptr X) 0 in
  let e := nth (i + 1) (cptr X) 0 in
  let q := (e - s) / k in
  if e - s <? m then (slice (cind X) s e, slice (cdat X) s e)
  else (slice (cind X) (s + q * f) (s + q * f + q), slice (cdat X) (s + q * f) (s + q * f + q)).

Definition long_row (X : csr) (m i : nat) : bool := m <=? nth (i + 1) (cptr X) 0 - nth i (cptr X) 0.

Lemma wf_bounds X i : csr_wf X -> i <= crows X -> nth i (cptr X) 0 <= length (cind X).
Proof.
  intros (H0 & Hm & Hl & _ & _) Hi. rewrite <- Hl.
  assert (G : forall d, i + d < length (cptr X) -> nth i (cptr X) 0 <= nth (i + d) (cptr X) 0).
  { induction d as [|d IH]; intros Hd; [rewrite Nat.add_0_r; lia|].
    rewrite <- plus_n_Sm. transitivity (nth (i + d) (cptr X) 0); [apply IH; lia|].
    apply Hm. lia. }
  assert (HL : 0 < length (cptr X)) by (destruct (cptr X); [discriminate|simpl; lia]).
  unfold crows in Hi.
  assert (E : last (cptr X) 0 = nth (length (cptr X) - 1) (cptr X) 0).
  { destruct (cptr X) as [|a l] eqn:Ec using rev_ind; [simpl in HL; lia|].
    rewrite last_last, app_length, Nat.add_sub. rewrite app_nth2, Nat.sub_diag by lia. reflexivity. }
  rewrite E. specialize (G (length (cptr X) - 1 - i)).
  replace (i + (length (cptr X) - 1 - i)) with (length (cptr X) - 1) in G by lia.
  apply G. lia.
Qed.

Lemma wf_mono X i : csr_wf X -> i < crows X -> nth i (cptr X) 0 <= nth (i + 1) (cptr X) 0.
Proof. intros (_ & H & _) Hi. rewrite Nat.add_1_r. apply H. unfold crows in Hi. lia. Qed.

Lemma fold_fits n f k : f < k -> n / k * f + n / k <= n.
Proof. intros H. pose proof (Nat.mul_div_le n k ltac:(lia)). nia. Qed.

Lemma wf_dat X : csr_wf X -> length (cdat X) = length (cind X).
Proof. intros (_ & _ & _ & H & _). auto. Qed.

Lemma block_lengths X f k m i : csr_wf X -> f < k -> i < crows X ->
  let n := nth (i + 1) (cptr X) 0 - nth i (cptr X) 0 in
  length (fst (lblock X f k m i)) = (if n <? m then n else n - n / k) /\
  length (snd (lblock X f k m i)) = (if n <? m then n else n - n / k) /\
  length (fst (rblock X f k m i)) = (if n <? m then n else n / k) /\
  length (snd (rblock X f k m i)) = (if n <? m then n else n / k).
Proof.
  intros HX Hf Hi n. pose proof (wf_mono X i HX Hi) as Hm.
  pose proof (wf_bounds X (i + 1) HX ltac:(lia)) as Hb. pose proof (wf_dat X HX) as Hd.
  pose proof (fold_fits n f k Hf) as Hq.
  unfold lblock, rblock. fold n. destruct (n <? m); cbn [fst snd].
  - repeat split; apply slice_length; lia.
  - assert (En : n = nth (i + 1) (cptr X) 0 - nth i (cptr X) 0) by reflexivity.
    generalize dependent n. intros n Hq En. set (q := n / k) in *. set (qf := q * f) in *.
    clearbody qf q. rewrite !app_length, !slice_length by lia. lia.
Qed.

Lemma fold_loop X f k m : csr_wf X -> f < k -> forall r, r <= crows X ->
  fold_left (fold_row X f k m) (seq 0 r) (0, side0, side0, [])
  = (nth r (cptr X) 0, side_of (map (lblock X f k m) (seq 0 r)),
     side_of (map (rblock X f k m) (seq 0 r)), filter (long_row X m) (seq 0 r)).
Proof.
  intros HX Hf. induction r as [|r IH]; intros Hr.
  - cbn. destruct HX as (H0 & _). destruct (cptr X); [discriminate|]. injection H0 as ->. reflexivity.
  - rewrite seq_S, fold_left_app, IH by lia. cbn [fold_left Nat.add].
    rewrite !map_app, filter_app. cbn [map filter].
    rewrite !side_of_snoc. unfold add_block.
    pose proof (block_lengths X f k m r HX Hf ltac:(lia)) as (L1 & _ & L3 & _).
    rewrite L1, L3. clear L1 L3.
    pose proof (wf_mono X r HX ltac:(lia)) as Hm. unfold fold_row.
    pose proof (fold_fits (nth (r + 1) (cptr X) 0 - nth r (cptr X) 0) f k Hf) as Hq.
    pose proof (wf_bounds X (r + 1) HX ltac:(lia)) as Hb.
    replace (nth r (cptr X) 0 + (nth (r + 1) (cptr X) 0 - nth r (cptr X) 0)) with (nth (r + 1) (cptr X) 0) by lia.
    unfold lblock, rblock, long_row.
    destruct (Nat.ltb_spec (nth (r + 1) (cptr X) 0 - nth r (cptr X) 0) m) as [Hlt|Hge].
    + rewrite slice_length by lia. replace (m <=? _) with false by (symmetry; apply Nat.leb_gt; lia).
      rewrite app_nil_r. cbn [fst snd]. rewrite <- (Nat.add_1_r r). reflexivity.
    + replace (m <=? _) with true by (symmetry; apply Nat.leb_le; lia).
      rewrite Nat.min_l by lia. cbn [fst snd]. rewrite <- (Nat.add_1_r r). reflexivity.
Qed.

(** What the two halves look like, row by row. *)
Definition train_row (f k m : nat) (r : srow) : srow :=
  let q := length r / k in
  if length r <? m then r else firstn (q * f) r ++ skipn (q * f + q) r.
Definition query_row (f k m : nat) (r : srow) : srow :=
  let q := length r / k in
  if length r <? m then r else firstn q (skipn (q * f) r).

Lemma csr_row_length X i : csr_wf X -> i < crows X ->
  length (csr_row X i) = nth (i + 1) (cptr X) 0 - nth i (cptr X) 0.
Proof.
  intros HX Hi. pose proof (wf_mono X i HX Hi). pose proof (wf_bounds X (i + 1) HX ltac:(lia)).
  pose proof (wf_dat X HX). unfold csr_row. rewrite combine_length. rewrite <- Nat.add_1_r.
  rewrite !slice_length by lia. lia.
Qed.

Lemma csr_row_slice X i : csr_row X i = slice (combine (cind X) (cdat X)) (nth i (cptr X) 0) (nth (S i) (cptr X) 0).
Proof. unfold csr_row. rewrite slice_combine. reflexivity. Qed.

Lemma slice_skip {A} (l : list A) a b : length l <= b -> slice l a b = skipn a l.
Proof. intros. unfold slice. apply firstn_all2. rewrite skipn_length. lia. Qed.

Lemma lblock_row X f k m i : csr_wf X -> f < k -> i < crows X ->
  combine (fst (lblock X f k m i)) (snd (lblock X f k m i)) = train_row f k m (csr_row X i).
Proof.
  intros HX Hf Hi. unfold train_row. rewrite (csr_row_length X i HX Hi).
  pose proof (wf_mono X i HX Hi). pose proof (wf_bounds X (i + 1) HX ltac:(lia)).
  pose proof (wf_dat X HX). unfold lblock.
  set (s := nth i (cptr X) 0) in *. set (e := nth (i + 1) (cptr X) 0) in *.
  pose proof (fold_fits (e - s) f k Hf) as Hq. set (q := (e - s) / k) in *.
  assert (Er : csr_row X i = slice (combine (cind X) (cdat X)) s e)
    by (rewrite csr_row_slice, <- Nat.add_1_r; reflexivity).
  destruct (e - s <? m); cbn [fst snd].
  - rewrite Er, slice_combine. reflexivity.
  - rewrite combine_app' by (rewrite !slice_length; lia). rewrite <- !slice_combine. rewrite Er.
    f_equal.
    + replace s with (s + 0) at 1 by lia. rewrite (slice_slice _ s e) by lia.
      unfold slice at 1. rewrite Nat.sub_0_r. reflexivity.
    + replace e with (s + (e - s)) at 1 by lia. rewrite <- Nat.add_assoc.
      rewrite (slice_slice _ s e) by lia. apply slice_skip.
      rewrite slice_length; [lia|lia|]. rewrite combine_length. lia.
Qed.

Lemma rblock_row X f k m i : csr_wf X -> f < k -> i < crows X ->
  combine (fst (rblock X f k m i)) (snd (rblock X f k m i)) = query_row f k m (csr_row X i).
Proof.
  intros HX Hf Hi. unfold query_row. rewrite (csr_row_length X i HX Hi).
  pose proof (wf_mono X i HX Hi). pose proof (wf_bounds X (i + 1) HX ltac:(lia)).
  pose proof (wf_dat X HX). unfold rblock.
  set (s := nth i (cptr X) 0) in *. set (e := nth (i + 1) (cptr X) 0) in *.
  pose proof (fold_fits (e - s) f k Hf) as Hq. set (q := (e - s) / k) in *.
  assert (Er : csr_row X i = slice (combine (cind X) (cdat X)) s e)
    by (rewrite csr_row_slice, <- Nat.add_1_r; reflexivity).
  destruct (e - s <? m); cbn [fst snd].
  - rewrite Er, slice_combine. reflexivity.
  - rewrite <- !slice_combine. rewrite Er.
    rewrite <- Nat.add_assoc. rewrite (slice_slice _ s e) by lia.
    unfold slice at 1. f_equal. lia.
Qed.

Lemma Forall_slice {A} (P : A -> Prop) l a b : Forall P l -> Forall P (slice l a b).
Proof.
  intros H. unfold slice. apply Forall_forall. intros x Hx.
  rewrite Forall_forall in H. apply H. rewrite <- (firstn_skipn a l). apply in_app_iff. right.
  rewrite <- (firstn_skipn (b - a) (skipn a l)). apply in_app_iff. left. exact Hx.
Qed.

Lemma folded_split_rows X f k m L R docs : csr_wf X -> f < k ->
  folded_split X f k m = (L, R, docs) ->
  csr_wf L /\ csr_wf R /\ crows L = crows X /\ crows R = crows X /\ ccols L = ccols X /\ ccols R = ccols X /\
  docs = filter (long_row X m) (seq 0 (crows X)) /\
  forall i, i < crows X -> csr_row L i = train_row f k m (csr_row X i) /\
                           csr_row R i = query_row f k m (csr_row X i).
Proof.
  intros HX Hf H. unfold folded_split in H. change (mkSide [0] [] []) with side0 in H.
  rewrite (fold_loop X f k m HX Hf) in H by lia. injection H as HL HR Hd.
  assert (Hok : blocks_ok (map (lblock X f k m) (seq 0 (crows X))) /\ blocks_ok (map (rblock X f k m) (seq 0 (crows X)))).
  { split; apply Forall_map, Forall_forall; intros i Hi; apply in_seq in Hi;
      pose proof (block_lengths X f k m i HX Hf ltac:(lia)); simpl in *; lia. }
  assert (Hc : Forall (fun b => Forall (fun c => c < ccols X) (fst b)) (map (lblock X f k m) (seq 0 (crows X))) /\
               Forall (fun b => Forall (fun c => c < ccols X) (fst b)) (map (rblock X f k m) (seq 0 (crows X)))).
  { destruct HX as (_ & _ & _ & _ & HX).
    split; apply Forall_map, Forall_forall; intros i _; unfold lblock, rblock; destruct (_ <? _); cbn [fst];
      try (apply Forall_slice; exact HX).
    apply Forall_app. split; apply Forall_slice; exact HX. }
  destruct Hok as [Ho1 Ho2], Hc as [Hc1 Hc2].
  destruct (csr_of_side_wf _ (ccols X) Ho1 Hc1) as [W1 N1].
  destruct (csr_of_side_wf _ (ccols X) Ho2 Hc2) as [W2 N2].
  rewrite map_length, seq_length in N1, N2.
  unfold csr_of_side in *. rewrite HL in *. rewrite HR in *.
  split; [exact W1|]. split; [exact W2|]. split; [exact N1|]. split; [exact N2|].
  split; [rewrite <- HL; reflexivity|]. split; [rewrite <- HR; reflexivity|]. split; [auto|].
  intros i Hi.
  assert (En : forall g : nat -> block, nth_error (map g (seq 0 (crows X))) i = Some (g i)).
  { intros g. rewrite nth_error_map. rewrite nth_error_nth' with (d := 0) by (rewrite seq_length; lia).
    rewrite seq_nth by lia. reflexivity. }
  split.
  - rewrite <- HL. etransitivity; [apply (csr_of_side_row _ (ccols X) i _ Ho1 (En _))|].
    apply lblock_row; auto.
  - rewrite <- HR. etransitivity; [apply (csr_of_side_row _ (ccols X) i _ Ho2 (En _))|].
    apply rblock_row; auto.
Qed.

Lemma train_query_perm f k m r : f < k -> m <= length r ->
  Permutation (train_row f k m r ++ query_row f k m r) r.
Proof.
  intros Hf Hm. unfold train_row, query_row. replace (length r <? m) with false by (symmetry; apply Nat.ltb_ge; lia).
  set (q := length r / k).
  rewrite <- app_assoc. transitivity (firstn (q * f) r ++ (firstn q (skipn (q * f) r) ++ skipn (q * f + q) r)).
  - apply Permutation_app_head, Permutation_app_comm.
  - rewrite <- skipn_add, firstn_skipn, firstn_skipn. reflexivity.
Qed.

Lemma sget_perm r r' c : Permutation r r' -> sget r c = sget r' c.
Proof.
  intros H. unfold sget. apply sumZ_perm, Permutation_map.
  induction H; simpl.
  - constructor.
  - destruct (fst x =? c); auto.
  - destruct (fst x =? c), (fst y =? c); auto; try apply perm_swap; reflexivity.
  - etransitivity; eauto.
Qed.

Lemma sget_absent r c : ~ In c (map fst r) -> sget r c = 0%Z.
Proof.
  induction r as [|e r IH]; intros H; [reflexivity|]. rewrite sget_cons. simpl in H.
  destruct (Nat.eqb_spec (fst e) c); [tauto|]. rewrite IH by tauto. lia.
Qed.

Lemma mget_csr X i j : mget (csr_smat X) i j = if i <? crows X then sget (csr_row X i) j else 0%Z.
Proof.
  unfold mget, csr_smat. cbn [srows]. rewrite nth_error_map.
  destruct (Nat.ltb_spec i (crows X)).
  - rewrite nth_error_nth' with (d := 0) by (rewrite seq_length; lia). rewrite seq_nth by lia. reflexivity.
  - rewrite (proj2 (nth_error_None _ _)); [reflexivity|]. rewrite seq_length. lia.
Qed.

Lemma NoDup_app_disjoint {A} (l r : list A) x : NoDup (l ++ r) -> In x l -> In x r -> False.
Proof.
  induction l as [|a l IH]; simpl; [tauto|]. intros H [->|Hl] Hr.
  - inversion H; subst. apply H2, in_app_iff. auto.
  - inversion H; subst. auto.
Qed.

Lemma nth_error_skipn {A} (l : list A) n i : nth_error (skipn n l) i = nth_error l (n + i).
Proof. revert l; induction n; intros l; simpl; [reflexivity|]. destruct l; [destruct i; reflexivity|apply IHn]. Qed.

Lemma nth_error_firstn {A} (l : list A) n i :
  nth_error (firstn n l) i = if i <? n then nth_error l i else None.
Proof.
  revert l i; induction n; intros l i; simpl; [destruct i; reflexivity|].
  destruct l; [destruct i; [reflexivity|]; destruct (_ <? _); reflexivity|].
  destruct i; [reflexivity|]. simpl. rewrite IHn. reflexivity.
Qed.

Lemma query_row_In f k m r q e : NoDup r -> f < k -> m <= length r -> nth_error r q = Some e ->
  (In e (query_row f k m r) <-> 0 < length r / k /\ q / (length r / k) = f).
Proof.
  intros Hnd Hf Hm He. unfold query_row. replace (length r <? m) with false by (symmetry; apply Nat.ltb_ge; lia).
  set (s := length r / k). split.
  - intros Hin. apply In_nth_error in Hin as (p & Hp). rewrite nth_error_firstn in Hp.
    destruct (Nat.ltb_spec p s); [|discriminate]. rewrite nth_error_skipn in Hp.
    assert (q = s * f + p) as ->.
    { eapply NoDup_nth_error; eauto; [apply nth_error_Some; congruence|]. congruence. }
    split; [lia|]. rewrite Nat.mul_comm, Nat.div_add_l, Nat.div_small by lia. lia.
  - intros [Hs Hq]. pose proof (Nat.div_mod q s ltac:(lia)) as E. rewrite Hq in E.
    pose proof (Nat.mod_upper_bound q s ltac:(lia)).
    apply nth_error_In with (n := q mod s). rewrite nth_error_firstn.
    replace (q mod s <? s) with true by (symmetry; apply Nat.ltb_lt; lia).
    rewrite nth_error_skipn, <- E. exact He.
Qed.

(** ** Coordinates *)
Lemma cooget_app a b i j : cooget (a ++ b) i j = (cooget a i j + cooget b i j)%Z.
Proof. unfold cooget. rewrite filter_app, map_app. apply sumZ_app. Qed.

Lemma cooget_row (r : srow) i0 i j :
  cooget (map (fun e => (i0, fst e, snd e)) r) i j = if i0 =? i then sget r j else 0%Z.
Proof.
  induction r as [|e r IH]; [destruct (i0 =? i); reflexivity|].
  cbn [map]. change (?x :: ?l) with ([x] ++ l) at 1. rewrite cooget_app, IH, sget_cons.
  unfold cooget. cbn. destruct (i0 =? i), (fst e =? j); cbn; lia.
Qed.

Lemma cooget_to_coo m i j : cooget (to_coo m) i j = mget m i j.
Proof.
  unfold to_coo, mget, nrows.
  assert (G : forall rs k, cooget (concat (map (fun '(i, r) => map (fun e => (i, fst e, snd e)) r)
              (combine (seq k (length rs)) rs))) i j
            = if k <=? i then match nth_error rs (i - k) with Some r => sget r j | None => 0%Z end else 0%Z).
  { induction rs as [|r rs IH]; intros k.
    - cbn. destruct (k <=? i); [|reflexivity]. destruct (i - k); reflexivity.
    - cbn [length seq combine map concat]. rewrite cooget_app, cooget_row, IH.
      destruct (Nat.eqb_spec k i) as [->|Hne].
      + rewrite Nat.leb_refl, Nat.sub_diag. replace (S i <=? i) with false by (symmetry; apply Nat.leb_gt; lia).
        cbn. lia.
      + destruct (Nat.leb_spec k i), (Nat.leb_spec (S k) i); try lia.
        replace (i - k) with (S (i - S k)) by lia. cbn. lia. }
  rewrite G. rewrite Nat.sub_0_r. reflexivity.
Qed.

Lemma cooget_cons a b v c i j :
  cooget ((a, b, v) :: c) i j = ((if ((a =? i) && (b =? j))%nat then v else 0) + cooget c i j)%Z.
Proof. unfold cooget. cbn [filter]. destruct ((a =? i) && (b =? j)); cbn; lia. Qed.

Lemma cooget_filter p c i j : (forall v, p (i, j, v) = p (i, j, 0%Z)) ->
  cooget (filter p c) i j = if p (i, j, 0%Z) then cooget c i j else 0%Z.
Proof.
  intros Hp. induction c as [|[[a b] v] c IH]; [destruct (p _); reflexivity|].
  cbn [filter]. rewrite cooget_cons.
  destruct ((a =? i) && (b =? j)) eqn:E2.
  - apply andb_true_iff in E2 as [E3 E4]. apply Nat.eqb_eq in E3, E4. subst.
    rewrite (Hp v). destruct (p (i, j, 0%Z)) eqn:E; [|exact IH].
    rewrite cooget_cons, IH, !Nat.eqb_refl. reflexivity.
  - destruct (p (a, b, v)); [rewrite cooget_cons, E2|]; rewrite IH; destruct (p _); lia.
Qed.

Lemma cooget_swap c i j : cooget (map (fun '(i, j, v) => (j, i, v)) c) i j = cooget c j i.
Proof.
  induction c as [|[[a b] v] c IH]; [reflexivity|]. cbn [map].
  rewrite !cooget_cons, IH, andb_comm. reflexivity.
Qed.
