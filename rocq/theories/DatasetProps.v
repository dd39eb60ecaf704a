(** * C04-C13, C65-C67: the DataSet class. *)
From Coq Require Import List ZArith QArith Arith Bool Lia Permutation Sorted.
From Coq Require String Ascii.
From Verif Require Import Base SparseModel SparseProofs SplitModel SplitProofs
  DatasetModel DatasetSpec DatasetProofs PruneProofs DatasetMore.
Import ListNotations.
Open Scope nat_scope.

Import String.StringSyntax.
Local Open Scope string_scope.
Local Open Scope nat_scope.

(** A small dataset used in the examples: 4 documents, 3 words, one feature,
    a 4x4 link matrix and categories. *)
Definition ex_words : smat := mkS [[(0, 2%Z)]; [(1, 1%Z)]; [(0, 1%Z); (2, 3%Z)]; [(2, 1%Z)]] 3.
Definition ex_links : smat := mkS [[(1, 1%Z); (2, 1%Z)]; [(0, 1%Z); (2, 1%Z)]; [(0, 1%Z); (1, 1%Z)]; [(0, 1%Z)]] 4.
Definition ex_cats : categories := NpArr [["a"]; ["b"]; ["c"]; ["d"]].
Definition ex_feats : fmat := mkF [[(1 # 2)%Q]; [0%Q]; [1%Q]; [0%Q]] 1.
Definition ex_ds : dataset :=
  mkDS ex_words (Some ex_feats) (Some ex_links) (DictArr ["x"; "y"; "z"]) ex_cats [0; 1; 2; 3].

(** ** C04 *)

(** Whenever the split succeeds, both halves consist of complete records of
    disjoint sets of documents which together are the corpus. *)
Theorem C04_split_keeps_records_together : forall ds fold folds train query,
  0 < doc_count ds ->
  cross_valid_split ds fold folds = Ok (train, query) ->
  exists tr qu,
    cross_valid_split_indices (Z.of_nat (doc_count ds)) fold folds
      = Ok (map Z.of_nat tr, map Z.of_nat qu) /\
    Permutation (tr ++ qu) (seq 0 (doc_count ds)) /\
    complete_rows tr ds train /\ complete_rows qu ds query.
Proof.
  intros ds fold folds train query HD E. unfold cross_valid_split in E.
  apply bind_ok in E as ([a b] & Ei & E). apply bind_ok in E as (t & Et & E).
  apply bind_ok in E as (q & Eq & [= <- <-]).
  assert (HP := split_partition (Z.of_nat (doc_count ds)) fold folds a b ltac:(lia) Ei).
  assert (Hback : forall l, incl l (zrange 0 (Z.of_nat (doc_count ds))) -> map Z.of_nat (map Z.to_nat l) = l).
  { intros l Hin. rewrite map_map. rewrite <- (map_id l) at 2. apply map_ext_in.
    intros x Hx. specialize (Hin x Hx). apply in_zrange in Hin. lia. }
  exists (map Z.to_nat a), (map Z.to_nat b). repeat match goal with |- _ /\ _ => split end.
  - rewrite !Hback; [exact Ei| |]; intros x Hx; eapply Permutation_in; try exact HP;
      apply in_app_iff; auto.
  - rewrite <- map_app, <- map_to_nat_zrange. apply Permutation_map. exact HP.
  - apply split_half_complete. exact Et.
  - apply split_half_complete. exact Eq.
Qed.

(** It succeeds for datasets of at least two documents whose components have
    equal lengths and whose categories, if any, are a numpy array. *)
Theorem C04_split_succeeds : forall ds fold folds,
  2 <= doc_count ds -> (fold < folds)%Z -> (1 < folds)%Z ->
  (match feats ds with None => True | Some f => length (frows f) = doc_count ds end) ->
  (match links ds with None => True | Some m => nrows m = doc_count ds end) ->
  (match cats ds with NoCats => True | PyList _ => False | NpArr l => length l = doc_count ds end) ->
  length (order ds) = doc_count ds ->
  exists train query, cross_valid_split ds fold folds = Ok (train, query).
Proof.
  intros ds fold folds HD Hf Hn H1 H2 H3 H4. unfold cross_valid_split.
  destruct (split_total (Z.of_nat (doc_count ds)) fold folds Hf Hn) as (tr & qu & E).
  rewrite E. cbn [bind].
  destruct (split_query_length (Z.of_nat (doc_count ds)) fold folds tr qu ltac:(lia) E) as (Lq & Lt).
  pose proof (query_size_bounds (Z.of_nat (doc_count ds)) folds ltac:(lia) Hn) as Hq.
  pose proof (ceil_div_spec (Z.of_nat (doc_count ds)) folds ltac:(lia)) as Hc.
  assert (HP := split_partition (Z.of_nat (doc_count ds)) fold folds tr qu ltac:(lia) E).
  assert (HR : Forall (fun z => (0 <= z < Z.of_nat (doc_count ds))%Z) (tr ++ qu)).
  { apply Forall_forall. intros x Hx. apply in_zrange. eapply Permutation_in; eauto. }
  apply Forall_app in HR as (HRt & HRq).
  assert (Hlt : (ceil_div (Z.of_nat (doc_count ds)) folds < Z.of_nat (doc_count ds))%Z) by nia.
  destruct (split_half_total ds tr) as (t & Et); auto; [lia|].
  destruct (split_half_total ds qu) as (q & Eq); auto; [lia|].
  rewrite Et. cbn [bind]. rewrite Eq. cbn [bind]. eauto.
Qed.

Example C04_case : 2 <= doc_count ex_ds /\
  exists train query, cross_valid_split ex_ds 1 3 = Ok (train, query) /\
    order train = [0; 1] /\ order query = [2; 3] /\ cats query = NpArr [["c"]; ["d"]].
Proof. split; [vm_compute; lia|]. eexists _, _. repeat split; reflexivity. Qed.

(** ** C05 *)

Theorem C05_rows_stay_coherent : forall w f l d c o limit ds0 ops ds,
  construct w f l d c o limit = Ok ds0 ->
  run ds0 ops = Ok ds ->
  exists sel keep k, coherent ds0 sel keep k ds.
Proof.
  intros w f l d c o limit ds0 ops ds E0 E.
  eapply coherent_run; [|exact E]. eapply coherent_init; eauto.
Qed.

(** The link rows come from the same documents too, whatever happens to the
    link columns, as long as the history does not rewrite link weights. *)
Theorem C05_links_stay_coherent : forall w f l d c o limit ds0 ops ds,
  construct w f l d c o limit = Ok ds0 ->
  Forall keeps_weights ops -> run ds0 ops = Ok ds ->
  exists sel keep k cols, coherent ds0 sel keep k ds /\ links_from ds0 sel cols ds.
Proof.
  intros w f l d c o limit ds0 ops ds E0 HF E.
  destruct (both_run ds0 ops _ _ _ _ _ _ HF (conj (coherent_init _ _ _ _ _ _ _ _ E0)
     (links_from_init _ _ _ _ _ _ _ _ E0)) E) as (sel & cols & keep & k & H1 & H2).
  exists sel, keep, k, cols. auto.
Qed.

Example C05_case : exists ds,
  run ex_ds [OpPrune (@rev nat) 1 2; OpMinFreq 2; OpIntercept; OpTrain 0 2; OpReorder [0; 0]] = Ok ds
  /\ order ds = [0] /\ scols (words ds) = 1.
Proof. eexists. repeat split; reflexivity. Qed.

(** ** C06 *)

Theorem C06_prune_keeps_largest_self_supporting_set : forall shuffle mu ml ds,
  (forall l, Permutation (shuffle l) l) -> prunable ds -> 0 < doc_count ds ->
  (doc_count ds = 1 -> enough_words ds mu 0) ->
  exists ds' o,
    prune_and_shuffle shuffle mu ml ds = (ds', Ok o) /\
    order ds' = o /\
    self_supporting ds mu ml o /\
    (forall T, self_supporting ds mu ml T -> incl T o) /\
    restricted o ds ds'.
Proof. intros. apply prune_correct; assumption. Qed.

Lemma ex_ds_prunable : prunable ex_ds.
Proof.
  unfold prunable. repeat split.
  - repeat constructor; simpl; intuition lia.
  - unfold swf. repeat constructor; simpl; lia.
  - unfold swf. repeat constructor; simpl; lia.
  - repeat constructor; simpl; lia.
  - eexists. split; reflexivity.
Qed.

Example C06_case : prunable ex_ds /\ Permutation (rev [0;1]) [0;1] /\
  prune_and_shuffle (@rev nat) 1 2 ex_ds = (fst (prune_and_shuffle (@rev nat) 1 2 ex_ds), Ok [2; 1; 0]).
Proof. split; [exact ex_ds_prunable|]. split; [apply Permutation_sym, Permutation_rev|]. reflexivity. Qed.

(** A corpus of one document that fails the word test does not give an empty
    result: the call raises. *)
Theorem C06_single_short_document_refuted : exists mu ml ds,
  prunable ds /\ doc_count ds = 1 /\ forall shuffle,
  snd (prune_and_shuffle shuffle mu ml ds) = Raise TypeError.
Proof.
  exists 1%Q, 0%Q, (mkDS (mkS [[]] 3) None None NoDict (NpArr [["a"]]) [0]).
  split; [|split; reflexivity].
  unfold prunable. repeat split; try (repeat constructor; fail). eexists. split; reflexivity.
Qed.

(** ** C07 *)

(** Pruning a dataset twice destroys the order: its entries no longer name the
    original rows. *)
Theorem C07_order_names_original_rows_refuted : exists ds0 ds i s r r0 c,
  construct (words ds0) (feats ds0) (links ds0) (dict ds0) (cats ds0) None 0 = Ok ds0 /\
  run ds0 [OpPrune (@rev nat) 1 0; OpPrune (@rev nat) 1 0] = Ok ds /\
  nth_error (order ds) i = Some s /\
  nth_error (srows (words ds)) i = Some r /\ nth_error (srows (words ds0)) s = Some r0 /\
  sget r c <> sget r0 c.
Proof.
  eexists ex_ds, _, 0, 3, [(0, 2%Z)], [(2, 1%Z)], 0.
  split; [reflexivity|]. split; [reflexivity|]. repeat (split; [reflexivity|]). vm_compute. discriminate.
Qed.

(** Loading files with an order gives a dataset whose order is the identity
    rather than the order applied. *)
Theorem C07_order_after_loading_refuted : exists w c o ds s r r0,
  from_loaded w None None NoDict c (Some o) 0 = Ok ds /\
  nth_error (order ds) 0 = Some s /\
  nth_error (srows (words ds)) 0 = Some r /\ nth_error (srows w) s = Some r0 /\
  sget r 0 <> sget r0 0.
Proof.
  eexists ex_words, ex_cats, [1; 0; 2; 3], _, 0, [(1, 1%Z)], [(0, 2%Z)].
  repeat (split; [reflexivity|]). vm_compute. discriminate.
Qed.

(** What does hold: with at most one pruning, before any split, and no other
    reordering, the order names the original rows.  Missing for the full claim:
    repeated pruning, pruning after a split, loading with an order. *)
Theorem C07_order_names_original_rows_partial :
  forall w f l d c limit ds0 pre prune post ds,
  construct w f l d c None limit = Ok ds0 -> (limit = 0 \/ nrows w <= limit) ->
  Forall rows_kept pre -> Forall order_safe post ->
  (prune = [] \/ exists shuffle mu ml, prune = [OpPrune shuffle mu ml]) ->
  run ds0 (pre ++ prune ++ post) = Ok ds ->
  exists keep k, coherent ds0 (order ds) keep k ds.
Proof.
  intros w f l d c limit ds0 pre prune post ds E0 Hlim Hpre Hpost Hprune E.
  assert (Hrun : forall a b ds1 ds2, run ds1 (a ++ b) = Ok ds2 ->
     exists dm, run ds1 a = Ok dm /\ run dm b = Ok ds2).
  { induction a as [|o a IH]; intros b ds1 ds2 H; simpl in *; [eauto|].
    apply bind_ok in H as (dx & Hx & H). rewrite Hx. simpl. auto. }
  apply Hrun in E as (d1 & E1 & E). apply Hrun in E as (d2 & E2 & E).
  pose proof (coherent_init _ _ _ _ _ _ _ _ E0) as H0.
  destruct (kept_run ds0 pre _ _ _ _ _ Hpre H0 E1) as (O1 & keep1 & k1 & H1).
  assert (O0 : order ds0 = seq 0 (nrows w)).
  { apply construct_ok in E0 as (_ & _ & _ & _ & _ & _ & _ & _ & _ & ->).
    destruct (Nat.ltb_spec 0 limit), (Nat.ltb_spec limit (nrows w)); simpl; auto; lia. }
  assert (D1 : doc_count d1 = nrows w).
  { destruct H1 as [Hw _ _ _ _ _ _]. apply rows_from_length in Hw. rewrite seq_length in Hw. exact Hw. }
  assert (T2 : tracks ds0 d2).
  { destruct Hprune as [-> | (sh & mu & ml & ->)]; simpl in E2.
    - injection E2 as <-. exists keep1, k1. rewrite O1, O0. exact H1.
    - unfold lift_state in E2. destruct (prune_and_shuffle sh mu ml d1) as [dx [r|e]] eqn:Ep; [|discriminate].
      simpl in E2. injection E2 as <-. eapply tracks_prune; [exact H1 | rewrite D1; reflexivity | exact Ep]. }
  destruct (tracks_run ds0 post d2 ds Hpost T2 E) as (keep & k & H). eauto.
Qed.

Example C07_case : exists ds, run ex_ds ([OpMinFreq 1] ++ [OpPrune (@rev nat) 1 2] ++ [OpTrain 0 2; OpCopy]) = Ok ds
  /\ order ds = [0].
Proof. eexists. split; reflexivity. Qed.

(** ** C08 *)

Theorem C08_limit_truncates_refuted : exists w limit ds,
  0 < limit /\ limit < nrows w /\ construct w None None NoDict NoCats None limit = Ok ds /\
  doc_count ds <> limit.
Proof.
  eexists ex_words, 2, _. split; [lia|]. split; [vm_compute; lia|]. split; [reflexivity|].
  vm_compute. lia.
Qed.

(** The limit never changes the number of documents; it only shortens the order. *)
Theorem C08_limit_only_shortens_order : forall w f l d c o limit ds,
  construct w f l d c o limit = Ok ds -> 0 < limit -> limit < nrows w ->
  (match o with None => True | Some o => length o = nrows w end) ->
  doc_count ds = nrows w /\ length (order ds) = limit.
Proof.
  intros w f l d c o limit ds H H1 H2 Ho.
  apply construct_ok in H as (W & _ & _ & _ & _ & _ & _ & _ & _ & O).
  unfold doc_count. rewrite W, O.
  rewrite (proj2 (Nat.ltb_lt 0 limit) H1), (proj2 (Nat.ltb_lt limit _) H2). simpl.
  split; auto. destruct o; [rewrite firstn_length; lia | apply seq_length].
Qed.

Example C08_case : 0 < 2 /\ 2 < nrows ex_words /\
  exists ds, construct ex_words None None NoDict NoCats None 2 = Ok ds.
Proof. split; [lia|]. split; [vm_compute; lia|]. eexists; reflexivity. Qed.

(** ** C09 *)

(** The category file: tokens of one document in sequence, the last one with a
    newline appended. *)
Definition with_nl (s : string) : string :=
  String.append s (String.String newline String.EmptyString).

Fixpoint doc_tokens (cats : list string) : list string :=
  match cats with
  | [] => []
  | [c] => [with_nl c]
  | c :: r => c :: doc_tokens r
  end.

(** Reading back, the last document ending without a newline ([last]) or not. *)
Lemma grouping_recovers : forall (docs : list (list string)) last,
  Forall (fun cs => cs <> []) docs ->
  Forall (Forall (fun c => ends_with_nl c = false)) docs ->
  Forall (fun c => ends_with_nl c = false) last ->
  group_categories (concat (map doc_tokens docs) ++ last) =
  docs ++ match last with [] => [] | _ => [last] end.
Proof.
  intros docs last Hne Hnl Hlast. unfold group_categories.
  set (f := fun '(dc, cur) cat => _).
  assert (D : forall cs acc cur rest, cs <> [] -> Forall (fun c => ends_with_nl c = false) cs ->
    fold_left f (doc_tokens cs ++ rest) (acc, cur) = fold_left f rest (acc ++ [cur ++ cs], [])).
  { induction cs as [|c cs IH]; intros acc cur rest Hn HF; [congruence|].
    inversion HF as [|? ? Hc HF']; subst. destruct cs as [|c2 cs].
    - simpl. unfold f at 2, with_nl. rewrite ends_with_nl_add, drop_last_add. reflexivity.
    - change (doc_tokens (c :: c2 :: cs)) with (c :: doc_tokens (c2 :: cs)).
      rewrite <- app_comm_cons. cbn [fold_left]. unfold f at 2. rewrite Hc.
      rewrite IH; [|congruence|assumption]. rewrite <- app_assoc. reflexivity. }
  assert (G : forall ds acc rest, Forall (fun cs => cs <> []) ds ->
     Forall (Forall (fun c => ends_with_nl c = false)) ds ->
     fold_left f (concat (map doc_tokens ds) ++ rest) (acc, []) = fold_left f rest (acc ++ ds, [])).
  { induction ds as [|cs ds IH]; intros acc rest H1 H2; simpl.
    - rewrite app_nil_r. reflexivity.
    - inversion H1; inversion H2; subst. rewrite <- app_assoc, D by assumption. rewrite IH by assumption.
      rewrite <- app_assoc. reflexivity. }
  assert (L : forall cs acc cur, Forall (fun c => ends_with_nl c = false) cs ->
    fold_left f cs (acc, cur) = (acc, cur ++ cs)).
  { induction cs as [|c cs IH]; intros acc cur HF; simpl; [rewrite app_nil_r; reflexivity|].
    inversion HF as [|? ? Hc HF']; subst. rewrite Hc, IH by assumption.
    rewrite <- app_assoc. reflexivity. }
  rewrite G, L by assumption. destruct last; cbn; rewrite ?app_nil_r; reflexivity.
Qed.

Theorem C09_grouping_recovers_categories : forall docs : list (list string),
  Forall (fun cs => cs <> []) docs ->
  Forall (Forall (fun c => ends_with_nl c = false)) docs ->
  group_categories (concat (map doc_tokens docs)) = docs.
Proof.
  intros docs H1 H2. rewrite <- (app_nil_r (concat _)), grouping_recovers by auto. apply app_nil_r.
Qed.

(** A file whose last line lacks the newline. *)
Theorem C09_last_line_may_lack_newline : forall (docs : list (list string)) last,
  Forall (fun cs => cs <> []) docs ->
  Forall (Forall (fun c => ends_with_nl c = false)) docs ->
  last <> [] -> Forall (fun c => ends_with_nl c = false) last ->
  group_categories (concat (map doc_tokens docs) ++ last) = docs ++ [last].
Proof.
  intros docs last H1 H2 H3 H4. rewrite grouping_recovers by auto. destruct last; [congruence|reflexivity].
Qed.

Example C09_last_case : group_categories (concat (map doc_tokens [["a"; "b"]; ["c"]]) ++ ["d"; "e"])
  = [["a"; "b"]; ["c"]; ["d"; "e"]].
Proof. reflexivity. Qed.

Example C09_case : group_categories (concat (map doc_tokens [["a"; "b"]; ["c"]])) = [["a"; "b"]; ["c"]]
  /\ length (concat (map doc_tokens [["a"; "b"]; ["c"]])) = 3 /\ ends_with_nl "a" = false.
Proof. repeat split. Qed.

(** ** C10 *)

Theorem C10_undirected_is_sum_of_directions : forall ds m,
  links ds = Some m -> nrows m = scols m ->
  exists ds' s, convert_to_undirected ds = (ds', Ok tt) /\ links ds' = Some s /\
    nrows s = nrows m /\ scols s = scols m /\
    words ds' = words ds /\ feats ds' = feats ds /\ cats ds' = cats ds /\ order ds' = order ds /\
    forall i j, i < nrows m -> j < nrows m ->
      mget s i j = (mget m i j + mget m j i)%Z /\ mget s i j = mget s j i.
Proof.
  intros ds m E Hsq. unfold convert_to_undirected. rewrite E.
  assert (exists s, madd m (transpose m) = Ok s) as (s & Es).
  { unfold madd, transpose, nrows in *. cbn [srows scols]. rewrite map_length, seq_length, Hsq, !Nat.eqb_refl.
    eexists. reflexivity. }
  rewrite Es. eexists _, s. split; [reflexivity|]. split; [reflexivity|].
  split; [eapply madd_nrows; eauto|]. split.
  { unfold madd in Es. destruct (_ && _); [|discriminate]. injection Es as <-. reflexivity. }
  repeat (split; [reflexivity|]).
  assert (G : forall i j, i < nrows m -> j < nrows m -> mget s i j = (mget m i j + mget m j i)%Z).
  { intros i j Hi Hj. rewrite (madd_mget _ _ _ i j Es) by lia. rewrite transpose_mget by lia. reflexivity. }
  intros i j Hi Hj. split; [auto|]. rewrite !G by assumption. lia.
Qed.

(** Symmetry survives every reordering and pruning of a square matrix. *)
Theorem C10_symmetry_survives_selection : forall o ds ds' m m',
  restricted o ds ds' -> links ds = Some m -> links ds' = Some m' ->
  (forall i j, mget m i j = mget m j i) ->
  forall i j, i < length o -> j < length o -> mget m' i j = mget m' j i.
Proof.
  intros o ds ds' m m' HR E E' Hsym i j Hi Hj.
  destruct HR as (_ & _ & _ & HL & _). rewrite E, E' in HL. destruct HL as (HL & Hc).
  assert (G : forall i j, i < length o -> j < length o -> mget m' i j = mget m (nth i o 0) (nth j o 0)).
  { clear i j Hi Hj. intros i j Hi Hj. pose proof (rows_from_length _ _ _ _ HL) as Hlen.
    unfold mget at 1. destruct (nth_error (srows m') i) as [r|] eqn:Er; [|apply nth_error_None in Er; lia].
    destruct (rows_from_nth _ _ _ _ _ _ HL Er) as (s & a & Hs & Ha & HA).
    rewrite (HA j (nth j o 0)) by (apply nth_error_nth'; assumption).
    unfold mget. rewrite (nth_error_nth o i 0 Hs). rewrite Ha. reflexivity. }
  rewrite !G by assumption. apply Hsym.
Qed.

Theorem C10_reorder_restricts_square_links : forall ds o,
  prunable ds -> Forall (fun i => i < doc_count ds) o ->
  exists ds', reorder ds o = (ds', Ok tt) /\ restricted o ds (set_order ds' o).
Proof.
  intros ds o HP HB. pose proof (restricted_id ds HP) as HR0.
  destruct (reorder_restricted ds _ _ o o HR0) as (ds1 & Er & _ & HR1 & _).
  - rewrite seq_length. exact HB.
  - cbn [set_order links]. destruct HP as (_ & _ & _ & Hl & _). destruct (links ds); [apply Hl | exact I].
  - rewrite compose_seq in HR1 by assumption.
    exists (set_order ds1 (order ds)). split; [|exact HR1].
    revert Er. unfold reorder, set_order, set_words, set_cats, set_feats, set_links. simpl.
    destruct (select_rows o (words ds)); [|discriminate].
    destruct (index_cats o (cats ds)); [|discriminate].
    destruct (select_feats o (feats ds)); [|discriminate].
    destruct (reorder_link_matrix (links ds) o); [|discriminate].
    intros [= <-]. reflexivity.
Qed.

Example C10_case : exists ds', fst (convert_to_undirected ex_ds) = ds' /\
  match links ds' with Some s => mget s 0 3 = 1%Z /\ mget s 3 0 = 1%Z /\ mget s 0 1 = 2%Z | None => False end.
Proof. eexists. split; [reflexivity|]. vm_compute. auto. Qed.

(** ** C11 *)

(** False in the presence of a stored zero: it becomes a link. *)
Theorem C11_binary_marks_nonzero_links_refuted : exists ds m ds' s,
  links ds = Some m /\ Forall (fun r => NoDup (map fst r)) (srows m) /\
  convert_to_binary ds = (ds', Ok tt) /\ links ds' = Some s /\
  mget m 0 1 = 0%Z /\ mget s 0 1 = 1%Z.
Proof.
  exists (set_links ex_ds (Some (mkS [[(1, 0%Z)]; []; []; []] 4))).
  eexists _, _, _. split; [reflexivity|]. split; [repeat constructor; simpl; tauto|].
  split; [reflexivity|]. split; [reflexivity|]. split; reflexivity.
Qed.

(** Also false with a repeated coordinate: the entry becomes two. *)
Theorem C11_binary_is_zero_one_refuted : exists ds m ds' s,
  links ds = Some m /\ Forall (Forall (fun e => snd e <> 0%Z)) (srows m) /\
  convert_to_binary ds = (ds', Ok tt) /\ links ds' = Some s /\ mget s 0 1 = 2%Z.
Proof.
  exists (set_links ex_ds (Some (mkS [[(1, 3%Z); (1, 4%Z)]; []; []; []] 4))).
  eexists _, _, _. split; [reflexivity|]. split; [repeat constructor; simpl; discriminate|].
  split; [reflexivity|]. split; reflexivity.
Qed.

(** True for canonical matrices without stored zeros. *)
Theorem C11_binary_marks_nonzero_links_canonical : forall ds m,
  links ds = Some m ->
  Forall (fun r => NoDup (map fst r)) (srows m) -> Forall (Forall (fun e => snd e <> 0%Z)) (srows m) ->
  exists ds' s, convert_to_binary ds = (ds', Ok tt) /\ links ds' = Some s /\
    nrows s = nrows m /\ scols s = scols m /\
    forall i j, mget s i j = if (mget m i j =? 0)%Z then 0%Z else 1%Z.
Proof.
  intros ds m E H1 H2. unfold convert_to_binary. rewrite E. eexists _, _.
  split; [reflexivity|]. split; [reflexivity|]. split; [unfold nrows, fill_ones; simpl; apply map_length|].
  split; [reflexivity|]. intros i j. apply fill_ones_mget; assumption.
Qed.

(** In particular after the conversion to an undirected graph, which always
    yields a canonical matrix: entry one iff the two directions do not cancel. *)
Theorem C11_binary_after_undirected : forall ds m,
  links ds = Some m -> nrows m = scols m ->
  exists ds1 ds2 s, convert_to_undirected ds = (ds1, Ok tt) /\
    convert_to_binary ds1 = (ds2, Ok tt) /\ links ds2 = Some s /\
    forall i j, i < nrows m -> j < nrows m ->
      mget s i j = if (mget m i j + mget m j i =? 0)%Z then 0%Z else 1%Z.
Proof.
  intros ds m E Hsq.
  destruct (C10_undirected_is_sum_of_directions ds m E Hsq) as (ds1 & s1 & E1 & L1 & N1 & _ & _ & _ & _ & _ & G).
  assert (K : Forall (fun r => NoDup (map fst r)) (srows s1) /\ Forall (Forall (fun e => snd e <> 0%Z)) (srows s1)).
  { unfold convert_to_undirected in E1. rewrite E in E1.
    destruct (madd m (transpose m)) as [s|] eqn:Es; [|discriminate]. injection E1 as <-.
    injection L1 as ->. unfold madd in Es. destruct (_ && _); [|discriminate]. injection Es as <-.
    cbn [srows]. split; apply Forall_forall; intros r Hr; apply in_map_iff in Hr as ((x, y) & <- & _);
      destruct (canon_row_wf (scols m) (x ++ y)) as (A & B); auto.
    eapply Forall_impl; [|exact B]. simpl; tauto. }
  destruct (C11_binary_marks_nonzero_links_canonical ds1 s1 L1 (proj1 K) (proj2 K))
    as (ds2 & s & E2 & L2 & _ & _ & H).
  exists ds1, ds2, s. repeat (split; [assumption|]). intros i j Hi Hj. rewrite H.
  destruct (G i j Hi Hj) as (-> & _). reflexivity.
Qed.

Example C11_case : links ex_ds = Some ex_links /\
  match links (fst (convert_to_binary (fst (convert_to_undirected ex_ds)))) with
  | Some s => mget s 0 1 = 1%Z /\ mget s 0 3 = 1%Z /\ mget s 1 3 = 0%Z | None => False end.
Proof. vm_compute. auto. Qed.

(** ** C12 *)

Definition feats_wf (ds : dataset) (f : fmat) : Prop :=
  feats ds = Some f /\ length (frows f) = doc_count ds /\ 0 < doc_count ds /\ 0 < fcols f /\
  Forall (fun r => length r = fcols f) (frows f).

Definition has_intercept (f : fmat) : Prop :=
  exists c, c < fcols f /\ Forall (fun r => (nth c r 0 == 1)%Q) (frows f).

(** A column such as (2, 0), of mean one, suppresses the intercept. *)
Theorem C12_intercept_present_refuted : exists ds f ds' r f',
  feats_wf ds f /\ add_intercept ds = (ds', Ok r) /\ feats ds' = Some f' /\ ~ has_intercept f'.
Proof.
  exists (mkDS (mkS [[]; []] 1) (Some (mkF [[2%Q]; [0%Q]] 1)) None NoDict NoCats [0; 1]).
  eexists _, _, _, _. split; [|split; [reflexivity|split; [reflexivity|]]].
  - unfold feats_wf, doc_count, nrows; simpl. repeat split; try lia; repeat constructor.
  - intros (c & Hc & HF). simpl in *. assert (c = 0) by lia. subst.
    inversion HF as [|? ? H0 HF']; subst. simpl in H0. discriminate H0.
Qed.

(** With features of at most one it is always there afterwards. *)
Theorem C12_intercept_present_bounded : forall ds f,
  feats_wf ds f -> Forall (Forall (fun x => (x <= 1)%Q)) (frows f) ->
  exists ds' r f', add_intercept ds = (ds', Ok r) /\ feats ds' = Some f' /\ has_intercept f' /\
    (r = Some false -> f' = f).
Proof.
  intros ds f (E & HL & HD & Hc & HR) HB. unfold add_intercept. rewrite E.
  destruct (Nat.eqb_spec (fcols f) 0); [lia|].
  destruct (forallb (fun c => Qlt_bool (col_mean f c) 1) (seq 0 (fcols f))) eqn:Em.
  - eexists _, _, _. split; [reflexivity|]. split; [reflexivity|]. split; [|discriminate].
    exists (fcols f). cbn [fcols frows]. split; [lia|]. apply Forall_map.
    eapply Forall_impl; [|exact HR]. intros r Hr. cbv beta in Hr.
    rewrite <- Hr, app_nth2, Nat.sub_diag by apply le_n.
    reflexivity.
  - eexists _, _, f. split; [reflexivity|]. split; [assumption|]. split; [|auto].
    assert (exists c, In c (seq 0 (fcols f)) /\ Qlt_bool (col_mean f c) 1 = false) as (c & Hin & Hm).
    { clear -Em. induction (seq 0 (fcols f)) as [|c s IH]; [discriminate|]. simpl in Em.
      destruct (Qlt_bool (col_mean f c) 1) eqn:E; [destruct (IH Em) as (x & Hx & Hx2); exists x; simpl; auto|].
      exists c. simpl; auto. }
    apply in_seq in Hin. exists c. split; [lia|]. apply mean_ge1 in Hm; [|lia].
    unfold col_sum in Hm. rewrite <- (map_length (fun r => nth c r 0%Q)) in Hm.
    apply sumQ_le_all in Hm.
    + rewrite Forall_map in Hm. exact Hm.
    + apply Forall_map. apply Forall_forall. intros r Hr. rewrite Forall_forall in HB, HR.
      specialize (HB r Hr). rewrite Forall_forall in HB. apply HB. apply nth_In.
      rewrite (HR r Hr). lia.
Qed.

(** A second call never changes anything, for arbitrary features. *)
Theorem C12_second_call_changes_nothing : forall ds f ds1 r1,
  feats_wf ds f -> add_intercept ds = (ds1, Ok r1) ->
  add_intercept ds1 = (ds1, Ok (Some false)).
Proof.
  intros ds f ds1 r1 (E & HL & HD & Hc & HR) E1. unfold add_intercept in E1. rewrite E in E1.
  destruct (Nat.eqb_spec (fcols f) 0); [lia|].
  destruct (forallb _ _) eqn:Em; injection E1 as <- <-.
  - unfold add_intercept. cbn [set_feats feats fcols]. simpl (S (fcols f) =? 0). cbv iota.
    rewrite intercept_stable; [reflexivity| |].
    + cbn [frows]. rewrite map_length. lia.
    + exists (fcols f). cbn [fcols frows]. split; [lia|]. apply Forall_map.
      eapply Forall_impl; [|exact HR]. intros r Hr. cbv beta in Hr.
    rewrite <- Hr, app_nth2, Nat.sub_diag by apply le_n.
      reflexivity.
  - unfold add_intercept. rewrite E. destruct (Nat.eqb_spec (fcols f) 0); [lia|]. rewrite Em. reflexivity.
Qed.

Example C12_case : feats_wf ex_ds ex_feats /\ Forall (Forall (fun x => (x <= 1)%Q)) (frows ex_feats) /\
  snd (add_intercept ex_ds) = Ok (Some true).
Proof.
  split; [|split; [|reflexivity]].
  - unfold feats_wf, doc_count, nrows; simpl. repeat split; try lia; repeat constructor.
  - repeat constructor; simpl; discriminate.
Qed.

(** ** C13 *)

Definition docs_with_word (w : smat) (c : nat) : nat :=
  length (filter (fun d => negb (mget w d c =? 0)%Z) (seq 0 (nrows w))).

Theorem C13_keeps_exactly_frequent_words : forall ds n l,
  dict ds = DictArr l -> length l = scols (words ds) ->
  Forall (fun r => NoDup (map fst r)) (srows (words ds)) ->
  0 < doc_count ds ->
  (match feats ds with None => True | Some f => length (frows f) = doc_count ds end) ->
  (match links ds with None => True | Some m => nrows m = doc_count ds end) ->
  (match cats_len (cats ds) with None => True | Some k => k = doc_count ds end) ->
  exists ds' ids l',
    words_with_min_freq ds n = Ok ds' /\
    StronglySorted lt ids /\
    (forall c, In c ids <-> c < scols (words ds) /\ n <= docs_with_word (words ds) c) /\
    scols (words ds') = length ids /\ doc_count ds' = doc_count ds /\
    (forall d j c, d < doc_count ds -> nth_error ids j = Some c ->
       mget (words ds') d j = mget (words ds) d c) /\
    dict ds' = DictArr l' /\ length l' = length ids /\
    (forall j c, nth_error ids j = Some c -> nth_error l' j = nth_error l c) /\
    feats ds' = feats ds /\ links ds' = links ds /\ cats ds' = cats ds /\ order ds' = order ds.
Proof.
  intros ds n l Ed Hl Hnd HD Hf Hlk Hc. unfold words_with_min_freq. rewrite Ed.
  set (ids := retained_words (words ds) n).
  assert (Hids : forall c, In c ids <-> c < scols (words ds) /\ n <= docs_with_word (words ds) c).
  { intros c. unfold ids. rewrite retained_filter, filter_In, in_seq, Nat.leb_le.
    rewrite docs_per_word_spec by assumption. unfold docs_with_word. intuition lia. }
  assert (HB : Forall (fun j => j < scols (words ds)) ids).
  { apply Forall_forall. intros c Hcc. apply Hids in Hcc. tauto. }
  unfold select_cols. rewrite (proj2 (forallb_forall _ ids)).
  2:{ intros x Hx. apply Nat.ltb_lt. rewrite Forall_forall in HB. auto. }
  cbn [bind]. destruct (select_total ids l) as (l' & El); [rewrite Hl; exact HB|].
  rewrite El. cbn [bind].
  assert (Hrows : nrows (mkS (map (select_cols_row ids) (srows (words ds))) (length ids)) = doc_count ds).
  { unfold nrows, doc_count. cbn [srows]. apply map_length. }
  edestruct construct_succeeds as (ds' & Ec); [..|rewrite Ec]; rewrite ?Hrows; auto.
  apply construct_ok in Ec as (W & F & L & Dd & C & _ & _ & _ & _ & O).
  exists ds', ids, l'. split; [reflexivity|]. split; [apply where_from_sorted|].
  split; [exact Hids|]. split; [rewrite W; reflexivity|].
  split; [unfold doc_count; rewrite W; exact Hrows|]. split.
  - intros d j c Hd Hj. rewrite W. unfold mget. cbn [srows]. rewrite nth_error_map.
    destruct (nth_error (srows (words ds)) d) as [r|] eqn:Er; [|reflexivity]. simpl.
    rewrite sget_select_cols, Hj. reflexivity.
  - split; [exact Dd|]. split; [eapply select_length; eauto|]. split.
    + intros j c Hj. rewrite (select_nth _ _ _ j El), Hj. reflexivity.
    + repeat split; auto.
Qed.

Example C13_case : dict ex_ds = DictArr ["x"; "y"; "z"] /\
  match words_with_min_freq ex_ds 2 with
  | Ok ds' => dict ds' = DictArr ["x"; "z"] /\ mget (words ds') 2 1 = 3%Z
  | Raise _ => False end.
Proof. vm_compute. auto. Qed.

(** ** C65: links with a separate set of columns *)

(** A link matrix whose columns are not the documents keeps its columns under
    pruning - false: once the word filter leaves as many documents as there are
    columns, the link filter treats the columns as documents. *)
Theorem C65_rectangular_link_columns_kept_refuted : exists ds m ds' o m',
  links ds = Some m /\ nrows m <> scols m /\
  prune_and_shuffle (fun l => l) 1 1 ds = (ds', Ok o) /\
  links ds' = Some m' /\ scols m' <> scols m.
Proof.
  exists (mkDS (mkS [[(0, 1%Z)]; [(0, 1%Z)]; []] 1) None
               (Some (mkS [[(1, 1%Z)]; []; [(0, 1%Z)]] 2)) NoDict (NpArr [["a"]; ["b"]; ["c"]]) [0; 1; 2]).
  eexists _, _, _, _. split; [reflexivity|]. split; [vm_compute; lia|].
  split; [reflexivity|]. split; [reflexivity|]. vm_compute. lia.
Qed.

(** Without link threshold the columns stay whenever the matrix is not square. *)
Theorem C65_rectangular_link_columns_kept_without_threshold : forall shuffle mu ds m ds' o,
  links ds = Some m -> nrows m <> scols m ->
  prune_and_shuffle shuffle mu 0 ds = (ds', Ok o) ->
  exists m', links ds' = Some m' /\ scols m' = scols m /\ rows_from eq o (srows m) (srows m').
Proof.
  intros sh mu ds m ds' o El Hne E. apply prune_inv in E as (_ & ds1 & E). cbv zeta in E.
  destruct E as (_ & Er & Eo & [(_ & ->) | (Hq & _)]); [|discriminate].
  set (ord := sh _) in *.
  apply reorder_inv in Er as (w & c & f & l & _ & _ & _ & Er & ->). cbn [set_order links order] in *.
  rewrite El in Er. simpl in Er. destruct (Nat.eqb_spec (nrows m) (scols m)); [contradiction|].
  apply bind_ok in Er as (r & Er & [= <-]). apply select_rows_ok in Er as (Er & Ec).
  exists r. split; [reflexivity|]. split; [assumption|]. subst o. apply select_rows_from. exact Er.
Qed.

Example C65_case : nrows (mkS [[(1, 1%Z)]; []; [(0, 1%Z)]] 2) <> 2.
Proof. vm_compute. lia. Qed.

(** ** C66: pruning needs array categories and is not atomic *)

(** Without categories, or with the list of lists that from_files builds,
    prune_and_shuffle always raises. *)
Theorem C66_prune_works_without_categories_refuted : forall shuffle mu ml ds,
  (forall l, Permutation (shuffle l) l) -> 0 < doc_count ds ->
  (forall l, cats ds <> NpArr l) ->
  snd (prune_and_shuffle shuffle mu ml ds) = Raise TypeError.
Proof.
  intros sh mu ml ds Hsh HD Hc. unfold prune_and_shuffle.
  destruct (Nat.eqb_spec (doc_count ds) 0); [lia|].
  set (good := good_rows (words ds) mu).
  destruct ((length good <? doc_count ds) && (doc_count ds =? 1)); [reflexivity|].
  set (base := if length good <? doc_count ds then good else seq 0 (doc_count ds)).
  assert (HB : Forall (fun i => i < doc_count ds) (sh base)).
  { apply Forall_forall. intros x Hx. apply (Permutation_in _ (Hsh base)) in Hx.
    unfold base in Hx. destruct (_ <? _).
    - unfold good, good_rows in Hx. apply where_In in Hx as (r & Hr & _).
      apply nth_error_Some. congruence.
    - apply in_seq in Hx. lia. }
  unfold reorder at 1. cbn [set_order words].
  destruct (select_total (sh base) (srows (words ds)) HB) as (w & Ew).
  unfold select_rows. rewrite Ew. cbn [bind set_words set_order cats].
  destruct (cats ds) as [|l|l]; [reflexivity|reflexivity|]. exfalso. eapply Hc; reflexivity.
Qed.

(** ... leaving a dataset whose words are pruned while the rest is not. *)
Theorem C66_failed_prune_leaves_dataset_alone_refuted : exists ds ds' e l m,
  prune_and_shuffle (fun l => l) 1 0 ds = (ds', Raise e) /\
  links ds' = Some l /\ links ds = Some m /\ nrows l = 2 /\ doc_count ds' = 1.
Proof.
  exists (mkDS (mkS [[(0, 1%Z)]; []] 1) None (Some (mkS [[]; []] 2)) NoDict NoCats [0; 1]).
  eexists _, _, _, _. repeat split; reflexivity.
Qed.

Example C66_case : (forall l : list nat, Permutation (rev l) l) /\
  (forall l, cats (set_cats ex_ds (PyList [["a"]; ["b"]; ["c"]; ["d"]])) <> NpArr l).
Proof. split; [intros; apply Permutation_sym, Permutation_rev | intros l; simpl; discriminate]. Qed.

(** ** C67: automatic conversion to sparse storage *)

Theorem C67_auto_convert_gives_sparse_storage_refuted : exists words_csr links_csr out,
  construct_storage words_csr links_csr false true = Ok out /\ fst out = false.
Proof. exists false, None, (false, None). split; reflexivity. Qed.

(** The stored words are CSR exactly when they already were or debug is on. *)
Theorem C67_sparse_storage_characterised : forall w l debug auto out,
  construct_storage w l debug auto = Ok out ->
  (fst out = true <-> (w = true \/ debug = true)) /\
  (auto = false -> fst out = true /\ snd out <> Some false).
Proof.
  intros w l debug auto out. unfold construct_storage, assert_.
  destruct w, debug, auto, l as [[|]|]; simpl; intros H; try discriminate; injection H as <-; simpl;
    repeat split; auto; try tauto; try congruence; intros; try discriminate.
  all: destruct H; discriminate.
Qed.

Example C67_case : construct_storage true (Some true) false false = Ok (true, Some true).
Proof. reflexivity. Qed.

Print Assumptions C04_split_keeps_records_together.
Print Assumptions C04_split_succeeds.
Print Assumptions C05_rows_stay_coherent.
Print Assumptions C05_links_stay_coherent.
Print Assumptions C06_prune_keeps_largest_self_supporting_set.
Print Assumptions C06_single_short_document_refuted.
Print Assumptions C07_order_names_original_rows_refuted.
Print Assumptions C07_order_after_loading_refuted.
Print Assumptions C07_order_names_original_rows_partial.
Print Assumptions C08_limit_truncates_refuted.
Print Assumptions C08_limit_only_shortens_order.
Print Assumptions C09_grouping_recovers_categories.
Print Assumptions C09_last_line_may_lack_newline.
Print Assumptions C10_undirected_is_sum_of_directions.
Print Assumptions C10_symmetry_survives_selection.
Print Assumptions C10_reorder_restricts_square_links.
Print Assumptions C11_binary_marks_nonzero_links_refuted.
Print Assumptions C11_binary_is_zero_one_refuted.
Print Assumptions C11_binary_marks_nonzero_links_canonical.
Print Assumptions C11_binary_after_undirected.
Print Assumptions C12_intercept_present_refuted.
Print Assumptions C12_intercept_present_bounded.
Print Assumptions C12_second_call_changes_nothing.
Print Assumptions C13_keeps_exactly_frequent_words.
Print Assumptions C65_rectangular_link_columns_kept_refuted.
Print Assumptions C65_rectangular_link_columns_kept_without_threshold.
Print Assumptions C66_prune_works_without_categories_refuted.
Print Assumptions C66_failed_prune_leaves_dataset_alone_refuted.
Print Assumptions C67_auto_convert_gives_sparse_storage_refuted.
Print Assumptions C67_sparse_storage_characterised.
