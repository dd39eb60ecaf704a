From Coq Require Import List ZArith QArith Arith Bool Lia Permutation Sorted.
From Verif Require Import Base SparseModel SparseProofs SplitModel DatasetModel DatasetSpec.
Import ListNotations.
Open Scope nat_scope.

(** ** Selection composes *)

Definition compose (o sel : list nat) : list nat := map (fun i => nth i sel 0) o.

Lemma rows_from_length {A B} (R : A -> B -> Prop) sel orig new :
  rows_from R sel orig new -> length new = length sel.
Proof. intros H. symmetry. eapply Forall2_len; eauto. Qed.

Lemma rows_from_select {A B} (R : A -> B -> Prop) sel orig l o l' :
  rows_from R sel orig l -> select o l = Ok l' -> rows_from R (compose o sel) orig l'.
Proof.
  intros H Hs. apply mapM_ok_Forall2 in Hs. unfold rows_from, compose.
  induction Hs as [|i b o l' Hi Hs IH]; simpl; constructor; auto.
  apply get_ok in Hi.
  destruct (Forall2_nth_error_r _ _ _ _ _ H Hi) as (s & Hsn & Hex).
  erewrite nth_error_nth by eassumption. exact Hex.
Qed.

Lemma rows_from_id {A} (R : A -> A -> Prop) (l : list A) :
  (forall a, R a a) -> rows_from R (seq 0 (length l)) l l.
Proof.
  intros HR. unfold rows_from.
  assert (G : forall (l pre : list A),
    Forall2 (fun s b => exists a, nth_error (pre ++ l) s = Some a /\ R a b)
            (seq (length pre) (length l)) l).
  { clear l. induction l as [|a l IH]; intros pre; simpl; constructor.
    - exists a. split; [|apply HR]. rewrite nth_error_app2, Nat.sub_diag by lia. reflexivity.
    - specialize (IH (pre ++ [a])). rewrite app_length in IH. simpl in IH.
      rewrite Nat.add_1_r in IH.
      replace ((pre ++ [a]) ++ l) with (pre ++ a :: l) in IH by (rewrite <- app_assoc; reflexivity).
      exact IH. }
  exact (G l []).
Qed.

Lemma rows_from_map {A B C} (R : A -> B -> Prop) (R' : A -> C -> Prop) (f : B -> C) sel orig l :
  (forall a b, R a b -> R' a (f b)) -> rows_from R sel orig l -> rows_from R' sel orig (map f l).
Proof.
  intros Hf H. unfold rows_from in *. induction H as [|s b sel l (a & Ha & HR) _ IH]; simpl; constructor; eauto.
Qed.

Lemma same_at_id n r : same_at (seq 0 n) r r.
Proof.
  intros j c H.
  destruct (Nat.lt_ge_cases j n) as [L|L].
  - assert (E : nth_error (seq 0 n) j = Some (0 + j)).
    { rewrite nth_error_nth' with (d := 0) by (rewrite seq_length; lia).
      rewrite seq_nth by lia. reflexivity. }
    simpl in E. congruence.
  - rewrite (proj2 (nth_error_None _ _)) in H by (rewrite seq_length; lia). discriminate.
Qed.

Lemma same_at_select_cols keep o r0 r :
  Forall (fun j => j < length keep) o ->
  same_at keep r0 r -> same_at (compose o keep) r0 (select_cols_row o r).
Proof.
  intros Ho H j c Hj. rewrite sget_select_cols.
  unfold compose in Hj. rewrite nth_error_map in Hj.
  destruct (nth_error o j) as [i|] eqn:E; [|discriminate]. simpl in Hj. injection Hj as <-.
  apply H. apply nth_error_nth'.
  rewrite Forall_forall in Ho. apply Ho. eapply nth_error_In; eauto.
Qed.

(** ** The constructor *)

Lemma construct_ok w f l d c o lim ds :
  construct w f l d c o lim = Ok ds ->
  words ds = w /\ feats ds = f /\ links ds = l /\ dict ds = d /\ cats ds = c /\
  0 < nrows w /\
  (match f with None => True | Some f => length (frows f) = nrows w end) /\
  (match l with None => True | Some l => nrows l = nrows w end) /\
  (match cats_len c with None => True | Some n => n = nrows w end) /\
  order ds = (if (0 <? lim) && (lim <? nrows w)
              then match o with None => seq 0 lim | Some o => firstn lim o end
              else match o with None => seq 0 (nrows w) | Some o => o end).
Proof.
  unfold construct, assert_, opt_len_ok. intros H.
  destruct (Nat.ltb_spec 0 (nrows w)) as [Hw|Hw]; [|discriminate]. cbn [bind] in H.
  destruct (match option_map (fun f0 => length (frows f0)) f with Some k => k =? nrows w | None => true end) eqn:E1;
    [|discriminate]. cbn [bind] in H.
  destruct (match option_map nrows l with Some k => k =? nrows w | None => true end) eqn:E2;
    [|discriminate]. cbn [bind] in H.
  destruct (match cats_len c with Some k => k =? nrows w | None => true end) eqn:E3;
    [|discriminate]. cbn [bind] in H.
  injection H as <-. simpl.
  repeat split; auto.
  - destruct f; simpl in *; auto. apply Nat.eqb_eq; assumption.
  - destruct l; simpl in *; auto. apply Nat.eqb_eq; assumption.
  - destruct (cats_len c); auto. apply Nat.eqb_eq; assumption.
  - destruct ((0 <? lim) && (lim <? nrows w)), o; reflexivity.
Qed.

Lemma construct_succeeds w f l d c o lim :
  0 < nrows w ->
  (match f with None => True | Some f => length (frows f) = nrows w end) ->
  (match l with None => True | Some l => nrows l = nrows w end) ->
  (match cats_len c with None => True | Some n => n = nrows w end) ->
  exists ds, construct w f l d c o lim = Ok ds.
Proof.
  intros Hw Hf Hl Hc. unfold construct, assert_, opt_len_ok.
  rewrite (proj2 (Nat.ltb_lt _ _) Hw). cbn [bind].
  replace (match option_map _ f with Some k => k =? nrows w | None => true end) with true
    by (destruct f; simpl; [symmetry; apply Nat.eqb_eq; assumption | reflexivity]). cbn [bind].
  replace (match option_map nrows l with Some k => k =? nrows w | None => true end) with true
    by (destruct l; simpl; [symmetry; apply Nat.eqb_eq; assumption | reflexivity]). cbn [bind].
  replace (match cats_len c with Some k => k =? nrows w | None => true end) with true
    by (destruct (cats_len c); simpl; [symmetry; apply Nat.eqb_eq; assumption | reflexivity]).
  cbn [bind]. eauto.
Qed.

Lemma where_from_sorted {A} (p : A -> bool) l : forall k,
  StronglySorted lt (where_from p k l).
Proof.
  induction l as [|a l IH]; intros k; simpl; [constructor|].
  destruct (p a); auto. constructor; auto. apply Forall_forall. intros x Hx.
  apply where_from_In in Hx as (? & ? & _). lia.
Qed.

Lemma seq_sorted n : forall k, StronglySorted lt (seq k n).
Proof.
  induction n as [|n IH]; intros k; simpl; constructor; auto.
  apply Forall_forall. intros x Hx. apply in_seq in Hx. lia.
Qed.

Lemma sorted_nth (l : list nat) : StronglySorted lt l ->
  forall i j, i < j -> j < length l -> nth i l 0 < nth j l 0.
Proof.
  induction 1 as [|a l Hs IH Ha]; intros i j Hij Hj; simpl in *; [lia|].
  destruct j as [|j]; [lia|]. destruct i as [|i].
  - rewrite Forall_forall in Ha. apply Ha. apply nth_In. lia.
  - apply IH; lia.
Qed.

Lemma compose_sorted o keep : StronglySorted lt o -> Forall (fun i => i < length keep) o ->
  StronglySorted lt keep -> StronglySorted lt (compose o keep).
Proof.
  intros Ho HB Hk. induction Ho as [|a o Hs IH Ha]; simpl; constructor.
  - apply IH. inversion HB; assumption.
  - inversion HB as [|? ? Hb HB']; subst. unfold compose. apply Forall_map.
    rewrite Forall_forall in *. intros x Hx. apply sorted_nth; auto.
Qed.

Lemma coherent_init w f l d c o lim ds :
  construct w f l d c o lim = Ok ds ->
  coherent ds (seq 0 (nrows w)) (seq 0 (scols w)) 0 ds.
Proof.
  intros H. apply construct_ok in H as (Hw & Hf & Hl & Hd & Hc & Hpos & Lf & Ll & Lc & _).
  constructor.
  - rewrite Hw. apply rows_from_id. apply same_at_id.
  - rewrite Hw, seq_length. reflexivity.
  - split; [apply seq_sorted|]. rewrite Hw. apply Forall_forall. intros x Hx. apply in_seq in Hx. lia.
  - assert (G : forall (l : list string) j c, nth_error (seq 0 (scols w)) j = Some c ->
                nth_error l j = nth_error l c).
    { intros l' j c' E. assert (j = c'); [|congruence].
      destruct (Nat.lt_ge_cases j (scols w)) as [L|L].
      - rewrite (nth_error_nth' _ 0) in E by (rewrite seq_length; lia).
        rewrite seq_nth in E by lia. simpl in E. congruence.
      - rewrite (proj2 (nth_error_None _ _)) in E by (rewrite seq_length; lia). discriminate. }
    destruct (dict ds); auto.
  - rewrite Hf. destruct f as [f|]; auto. rewrite <- Lf. apply rows_from_id.
    intros a. unfold with_ones. simpl. rewrite app_nil_r. reflexivity.
  - rewrite Hc. destruct c; auto; simpl in Lc; rewrite <- Lc; apply rows_from_id; auto.
  - rewrite Hl. destruct l as [l|]; auto. rewrite seq_length. assumption.
Qed.

Lemma links_from_init w f l d c o lim ds :
  construct w f l d c o lim = Ok ds ->
  links_from ds (seq 0 (nrows w)) (seq 0 (match l with None => 0 | Some l => scols l end)) ds.
Proof.
  intros H. apply construct_ok in H as (Hw & Hf & Hl & Hd & Hc & Hpos & Lf & Ll & Lc & _).
  unfold links_from. rewrite Hl. destruct l as [l|]; auto. split.
  - rewrite <- Ll. apply rows_from_id. apply same_at_id.
  - rewrite seq_length. reflexivity.
Qed.

(** ** Single operations *)

Lemma select_feats_coherent sel k f0 f o f' :
  match f0, f with
  | None, None => True
  | Some f0, Some f => rows_from (with_ones k) sel (frows f0) (frows f)
  | _, _ => False
  end ->
  select_feats o f = Ok f' ->
  match f0, f' with
  | None, None => True
  | Some f0, Some f => rows_from (with_ones k) (compose o sel) (frows f0) (frows f)
  | _, _ => False
  end.
Proof.
  unfold select_feats, select_frows. destruct f as [f|].
  - intros H E. apply bind_ok in E as (g & E & [= <-]). apply bind_ok in E as (rs & E & [= <-]).
    destruct f0; [|contradiction]. simpl. eapply rows_from_select; eauto.
  - intros H [= <-]. exact H.
Qed.

Lemma index_cats_coherent sel c0 c o c' :
  match c0, c with
  | NoCats, NoCats => True
  | PyList l0, PyList l => rows_from eq sel l0 l
  | NpArr l0, NpArr l => rows_from eq sel l0 l
  | _, _ => False
  end ->
  index_cats o c = Ok c' ->
  match c0, c' with
  | NoCats, NoCats => True
  | PyList l0, PyList l => rows_from eq (compose o sel) l0 l
  | NpArr l0, NpArr l => rows_from eq (compose o sel) l0 l
  | _, _ => False
  end.
Proof.
  unfold index_cats. destruct c as [|l|l]; try discriminate.
  intros H E. apply bind_ok in E as (l' & E & [= <-]).
  destruct c0; try contradiction. eapply rows_from_select; eauto.
Qed.

Lemma reorder_link_nrows m o m' : reorder_link_matrix m o = Ok m' ->
  match m, m' with
  | None, None => True
  | Some _, Some l => nrows l = length o
  | _, _ => False
  end.
Proof.
  unfold reorder_link_matrix. destruct m as [m|]; [|intros [= <-]; exact I].
  destruct (nrows m =? scols m).
  - intros E. apply bind_ok in E as (r & E & E2). apply bind_ok in E2 as (rc & E2 & [= <-]).
    apply select_rows_ok in E as (E & _). apply select_cols_ok in E2 as (_ & E2 & _).
    unfold nrows. rewrite E2, map_length. eapply select_length; eauto.
  - intros E. apply bind_ok in E as (r & E & [= <-]).
    apply select_rows_ok in E as (E & _). unfold nrows. eapply select_length; eauto.
Qed.

Lemma reorder_inv ds o ds' : reorder ds o = (ds', Ok tt) ->
  exists w c f l,
    select_rows o (words ds) = Ok w /\ index_cats o (cats ds) = Ok c /\
    select_feats o (feats ds) = Ok f /\ reorder_link_matrix (links ds) o = Ok l /\
    ds' = mkDS w f l (dict ds) c (order ds).
Proof.
  unfold reorder. destruct (select_rows o (words ds)) as [w|] eqn:Ew; [|discriminate].
  cbn [set_words cats]. destruct (index_cats o (cats ds)) as [c|] eqn:Ec; [|discriminate].
  cbn [set_cats set_words feats]. destruct (select_feats o (feats ds)) as [f|] eqn:Ef; [|discriminate].
  cbn [set_feats set_cats set_words links].
  destruct (reorder_link_matrix (links ds) o) as [l|] eqn:El; [|discriminate].
  intros [= <-]. exists w, c, f, l. repeat split; auto.
Qed.

Lemma coherent_reorder ds0 sel keep k ds o ds' :
  coherent ds0 sel keep k ds -> reorder ds o = (ds', Ok tt) ->
  coherent ds0 (compose o sel) keep k ds'.
Proof.
  intros [Hw Hc Hk Hd Hf Hcat Hl] H.
  apply reorder_inv in H as (w & c & f & l & Ew & Ec & Ef & El & ->).
  apply select_rows_ok in Ew as (Ew & Ewc).
  constructor; simpl.
  - eapply rows_from_select; eauto.
  - congruence.
  - exact Hk.
  - exact Hd.
  - eapply select_feats_coherent; eauto.
  - eapply index_cats_coherent; eauto.
  - apply reorder_link_nrows in El. unfold compose. rewrite map_length.
    destruct (links ds), l, (links ds0); auto; contradiction.
Qed.

Lemma coherent_set_order ds0 sel keep k ds o :
  coherent ds0 sel keep k ds -> coherent ds0 sel keep k (set_order ds o).
Proof. intros [? ? ? ? ? ? ?]; constructor; simpl; assumption. Qed.

Lemma coherent_set_links ds0 sel keep k ds l :
  coherent ds0 sel keep k ds ->
  (match links ds with None => False | Some m => nrows l = nrows m end) ->
  coherent ds0 sel keep k (set_links ds (Some l)).
Proof.
  intros [? ? ? ? ? ? Hl] H; constructor; simpl; try assumption.
  destruct (links ds), (links ds0); try contradiction. congruence.
Qed.

Lemma coherent_link_loop ds0 fuel : forall sel keep k ml ds ds',
  coherent ds0 sel keep k ds -> link_loop fuel ml ds = (ds', Ok tt) ->
  exists sel', coherent ds0 sel' keep k ds'.
Proof.
  induction fuel as [|fuel IH]; intros sel keep k ml ds ds' H E; simpl in E.
  - destruct (links ds) as [l|]; [|injection E as <-; eauto].
    destruct (_ <? _); [discriminate | injection E as <-; eauto].
  - destruct (links ds) as [l|] eqn:El; [|injection E as <-; eauto].
    destruct (_ <? _); [|injection E as <-; eauto].
    destruct (reorder ds (sufficient_docs l ml)) as [ds1 [[]|e]] eqn:Er; [|discriminate].
    destruct (select _ (order ds1)) as [o|e]; [|discriminate].
    eapply IH; [|exact E]. apply coherent_set_order. eapply coherent_reorder; eauto.
Qed.

Lemma prune_inv sh mu ml ds ds' o :
  prune_and_shuffle sh mu ml ds = (ds', Ok o) ->
  0 < doc_count ds /\
  exists ds1,
    let good := good_rows (words ds) mu in
    let ord := sh (if length good <? doc_count ds then good else seq 0 (doc_count ds)) in
    ~ (length good < doc_count ds /\ doc_count ds = 1) /\
    reorder (set_order ds ord) ord = (ds1, Ok tt) /\ o = order ds' /\
    ((Qeq_bool ml 0 = true \/ links ds1 = None) /\ ds' = ds1 \/
     Qeq_bool ml 0 = false /\ links ds1 <> None /\
     link_loop (doc_count ds1) ml ds1 = (ds', Ok tt)).
Proof.
  unfold prune_and_shuffle. destruct (Nat.eqb_spec (doc_count ds) 0) as [|HD]; [discriminate|].
  set (good := good_rows (words ds) mu). intros H. split; [lia|].
  destruct ((length good <? doc_count ds) && (doc_count ds =? 1)) eqn:E1; [discriminate|].
  destruct (reorder _ _) as [ds1 [[]|e]] eqn:Er; [|discriminate].
  exists ds1. cbv zeta. fold good. split; [|split; [reflexivity|]].
  - intros (A & B). apply andb_false_iff in E1. rewrite Nat.ltb_ge, Nat.eqb_neq in E1. lia.
  - destruct (Qeq_bool ml 0) eqn:Eq.
    + injection H as <- <-. auto.
    + destruct (links ds1) as [l|] eqn:El.
      * destruct (link_loop _ _ _) as [ds2 [[]|e]] eqn:Ell; [|discriminate].
        injection H as <- <-. split; auto. right. repeat split; auto; discriminate.
      * injection H as <- <-. auto.
Qed.

Lemma coherent_prune ds0 sel keep k sh mu ml ds ds' o :
  coherent ds0 sel keep k ds -> prune_and_shuffle sh mu ml ds = (ds', Ok o) ->
  exists sel', coherent ds0 sel' keep k ds'.
Proof.
  intros H E. apply prune_inv in E as (_ & ds1 & E). cbv zeta in E.
  destruct E as (_ & Er & _ & [(_ & ->) | (_ & _ & E)]).
  - eexists. eapply coherent_reorder; [|exact Er]. apply coherent_set_order; eassumption.
  - eapply coherent_link_loop; [|exact E]. eapply coherent_reorder; [|exact Er].
    apply coherent_set_order; eassumption.
Qed.

Lemma split_half_inv ds range ds' : split_half ds range = Ok ds' ->
  let idx := map Z.to_nat range in
  exists w f l c o,
    select idx (srows (words ds)) = Ok (srows w) /\ scols w = scols (words ds) /\
    select_feats idx (feats ds) = Ok f /\
    (match links ds, l with
     | None, None => True
     | Some m, Some r => select idx (srows m) = Ok (srows r) /\ scols r = scols m
     | _, _ => False end) /\
    (match cats ds with NoCats => c = NoCats | cc => index_cats idx cc = Ok c end) /\
    select idx (order ds) = Ok o /\
    construct w f l (dict ds) c (Some o) 0 = Ok ds'.
Proof.
  unfold split_half. intros H. cbv zeta.
  apply bind_ok in H as (w & Ew & H). apply select_rows_ok in Ew as (Ew & Ewc).
  apply bind_ok in H as (f & Ef & H). apply bind_ok in H as (l & El & H).
  apply bind_ok in H as (c & Ec & H). apply bind_ok in H as (o & Eo & H).
  exists w, f, l, c, o. repeat split; auto.
  - destruct (links ds) as [m|].
    + apply bind_ok in El as (r & Er & [= <-]). apply select_rows_ok in Er. exact Er.
    + injection El as <-. exact I.
  - destruct (cats ds); auto. injection Ec as <-. reflexivity.
Qed.

Lemma coherent_split_half ds0 sel keep k ds range ds' :
  coherent ds0 sel keep k ds -> split_half ds range = Ok ds' ->
  coherent ds0 (compose (map Z.to_nat range) sel) keep k ds'.
Proof.
  intros [Hw Hc Hk Hd Hf Hcat Hl] H.
  apply split_half_inv in H as (w & f & l & c & o & Ew & Ewc & Ef & El & Ec & Eo & H).
  apply construct_ok in H as (W & F & L & D & C & _).
  constructor.
  - rewrite W. eapply rows_from_select; eauto.
  - rewrite W. congruence.
  - exact Hk.
  - rewrite D. exact Hd.
  - rewrite F. eapply select_feats_coherent; eauto.
  - rewrite C. destruct (cats ds) as [|x|x] eqn:Ex.
    + subst c. exact Hcat.
    + discriminate.
    + exact (index_cats_coherent _ _ (NpArr x) _ _ Hcat Ec).
  - rewrite L. unfold compose. rewrite map_length.
    destruct (links ds), l, (links ds0); auto; try contradiction.
    destruct El as (El & _). unfold nrows. eapply select_length; eauto.
Qed.

Lemma coherent_construct ds0 sel keep k ds w f l d c o lim ds' :
  coherent ds0 sel keep k (mkDS w f l d c (order ds)) -> construct w f l d c o lim = Ok ds' ->
  coherent ds0 sel keep k ds'.
Proof.
  intros [? ? ? ? ? ? ?] H. apply construct_ok in H as (W & F & L & D & C & _).
  simpl in *. constructor; rewrite ?W, ?F, ?L, ?C, ?D; assumption.
Qed.

Lemma coherent_minfreq ds0 sel keep k ds n ds' :
  coherent ds0 sel keep k ds -> words_with_min_freq ds n = Ok ds' ->
  exists keep', coherent ds0 sel keep' k ds'.
Proof.
  intros [Hw Hc Hk Hd Hf Hcat Hl] H. unfold words_with_min_freq in H.
  apply bind_ok in H as (w & Ew & H). destruct (dict ds) as [| |dl]; try discriminate.
  apply bind_ok in H as (dl' & Edl & H).
  exists (compose (retained_words (words ds) n) keep).
  apply select_cols_ok in Ew as (Hb & Er & Ec).
  eapply (coherent_construct _ _ _ _ ds); [|exact H].
  destruct Hk as (Hk & Hkb). rewrite Hc in Hb.
  constructor; simpl; auto.
  - rewrite Er. eapply rows_from_map; [|exact Hw]. intros a b. apply same_at_select_cols.
    exact Hb.
  - unfold compose. rewrite map_length. exact Ec.
  - split.
    + apply compose_sorted; auto. apply where_from_sorted.
    + unfold compose. apply Forall_map. rewrite Forall_forall in *. intros x Hx. apply Hkb.
      apply nth_In. auto.
  - destruct (dict ds0); try contradiction. intros j c E. unfold compose in E.
    rewrite nth_error_map in E. rewrite (select_nth _ _ _ j Edl).
    destruct (nth_error (retained_words (words ds) n) j) as [i|] eqn:Ei; [|discriminate].
    injection E as <-. apply Hd. apply nth_error_nth'.
    rewrite Forall_forall in Hb. apply Hb. eapply nth_error_In; eauto.
Qed.

Lemma coherent_intercept ds0 sel keep k ds ds' r :
  coherent ds0 sel keep k ds -> add_intercept ds = (ds', Ok r) ->
  exists k', coherent ds0 sel keep k' ds'.
Proof.
  intros H E. unfold add_intercept in E. destruct (feats ds) as [f|] eqn:Ef.
  - destruct (fcols f =? 0); [discriminate|].
    destruct (forallb _ _); injection E as <- _; [|eauto].
    destruct H as [Hw Hc Hk Hd Hf Hcat Hl]. exists (S k). constructor; simpl; auto.
    rewrite Ef in Hf. destruct (feats ds0); [|contradiction].
    eapply rows_from_map; [|exact Hf]. intros a b. unfold with_ones. intros ->.
    rewrite <- app_assoc. f_equal. change [1%Q] with (repeat 1%Q 1).
    rewrite <- repeat_app, Nat.add_1_r. reflexivity.
  - injection E as <- _. eauto.
Qed.

Lemma madd_nrows a b s : madd a b = Ok s -> nrows s = nrows a.
Proof.
  unfold madd. destruct (Nat.eqb_spec (nrows a) (nrows b)) as [E|]; simpl; [|discriminate].
  destruct (scols a =? scols b); [|discriminate]. intros [= <-]. unfold nrows in *. simpl.
  rewrite map_length, combine_length. lia.
Qed.

Lemma coherent_step ds0 sel keep k ds o ds' :
  coherent ds0 sel keep k ds -> step ds o = Ok ds' ->
  exists sel' keep' k', coherent ds0 sel' keep' k' ds'.
Proof.
  intros H E. destruct o; simpl in E; unfold lift_state in E.
  - destruct (reorder ds o) as [ds1 [[]|e]] eqn:Er; [|discriminate]. injection E as <-.
    eexists _, _, _. eapply coherent_reorder; eauto.
  - destruct (prune_and_shuffle _ _ _ _) as [ds1 [r|e]] eqn:Er; [|discriminate]. injection E as <-.
    destruct (coherent_prune _ _ _ _ _ _ _ _ _ _ H Er); eauto.
  - apply bind_ok in E as ([tr qu] & E & [= <-]). unfold cross_valid_split in E.
    apply bind_ok in E as ([a b] & _ & E). apply bind_ok in E as (t & E & E2).
    apply bind_ok in E2 as (q & E2 & [= <- <-]).
    eexists _, _, _. eapply coherent_split_half; eauto.
  - apply bind_ok in E as ([tr qu] & E & [= <-]). unfold cross_valid_split in E.
    apply bind_ok in E as ([a b] & _ & E). apply bind_ok in E as (t & E & E2).
    apply bind_ok in E2 as (q & E2 & [= <- <-]).
    eexists _, _, _. eapply coherent_split_half; eauto.
  - eexists _, _, _. eapply (coherent_construct _ _ _ _ ds); [|exact E]. destruct ds; exact H.
  - destruct (coherent_minfreq _ _ _ _ _ _ _ H E); eauto.
  - destruct (add_intercept ds) as [ds1 [r|e]] eqn:Er; [|discriminate]. injection E as <-.
    destruct (coherent_intercept _ _ _ _ _ _ _ H Er); eauto.
  - unfold convert_to_undirected in E. destruct (links ds) as [m|] eqn:El; [|discriminate].
    destruct (madd m (transpose m)) as [s|] eqn:Em; [|discriminate]. injection E as <-.
    eexists _, _, _. apply coherent_set_links; [eassumption|]. rewrite El. eapply madd_nrows; eauto.
  - unfold convert_to_binary in E. destruct (links ds) as [m|] eqn:El; [|discriminate].
    injection E as <-. eexists _, _, _. apply coherent_set_links; [eassumption|]. rewrite El.
    unfold nrows, fill_ones. simpl. apply map_length.
Qed.

Lemma coherent_run ds0 ops : forall sel keep k ds ds',
  coherent ds0 sel keep k ds -> run ds ops = Ok ds' ->
  exists sel' keep' k', coherent ds0 sel' keep' k' ds'.
Proof.
  induction ops as [|o ops IH]; intros sel keep k ds ds' H E; simpl in E.
  - injection E as <-. eauto.
  - apply bind_ok in E as (ds1 & E1 & E).
    destruct (coherent_step _ _ _ _ _ _ _ H E1) as (? & ? & ? & H1). eauto.
Qed.
