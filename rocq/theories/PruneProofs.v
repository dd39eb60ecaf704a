(** Proofs about prune_and_shuffle (C06), joint row/link histories (C05). *)
From Coq Require Import List ZArith QArith Arith Bool Lia Permutation.
From Verif Require Import Base SparseModel SparseProofs SplitModel SplitProofs
  DatasetModel DatasetSpec DatasetProofs.
Import ListNotations.
Open Scope nat_scope.

(** ** Links along histories *)

Definition both ds0 sel cols keep k ds := coherent ds0 sel keep k ds /\ links_from ds0 sel cols ds.

Lemma links_from_reorder ds0 sel cols ds o ds' :
  links_from ds0 sel cols ds -> reorder ds o = (ds', Ok tt) ->
  exists cols', links_from ds0 (compose o sel) cols' ds'.
Proof.
  intros H E. apply reorder_inv in E as (w & c & f & l & _ & _ & _ & El & ->).
  unfold links_from in *. simpl. destruct (links ds) as [m|]; simpl in El.
  - destruct (links ds0) as [m0|]; [|contradiction]. destruct H as (H & Hc).
    destruct (nrows m =? scols m).
    + apply bind_ok in El as (r & Er & El). apply bind_ok in El as (rc & Erc & [= <-]).
      apply select_rows_ok in Er as (Er & Erc'). apply select_cols_ok in Erc as (Hb & Hr & Hcc).
      exists (compose o cols). split.
      * rewrite Hr. eapply rows_from_map; [|eapply rows_from_select; eassumption].
        intros a b. apply same_at_select_cols. rewrite <- Hc, <- Erc'. exact Hb.
      * unfold compose. rewrite map_length. exact Hcc.
    + apply bind_ok in El as (r & Er & [= <-]). apply select_rows_ok in Er as (Er & Erc).
      exists cols. split; [eapply rows_from_select; eassumption | congruence].
  - injection El as <-. destruct (links ds0); [contradiction|]. exists []. exact I.
Qed.

Lemma links_from_ext ds0 sel cols ds ds' :
  links ds' = links ds -> links_from ds0 sel cols ds -> links_from ds0 sel cols ds'.
Proof. unfold links_from. intros ->. auto. Qed.

Lemma both_reorder ds0 sel cols keep k ds o ds' :
  both ds0 sel cols keep k ds -> reorder ds o = (ds', Ok tt) ->
  exists sel' cols', both ds0 sel' cols' keep k ds'.
Proof.
  intros (H1 & H2) E. destruct (links_from_reorder _ _ _ _ _ _ H2 E) as (cols' & H2').
  exists (compose o sel), cols'. split; [eapply coherent_reorder; eauto | exact H2'].
Qed.

Lemma both_set_order ds0 sel cols keep k ds o :
  both ds0 sel cols keep k ds -> both ds0 sel cols keep k (set_order ds o).
Proof.
  intros (H1 & H2). split; [apply coherent_set_order; assumption|].
  eapply links_from_ext; [|eassumption]. reflexivity.
Qed.

Lemma both_link_loop ds0 fuel : forall sel cols keep k ml ds ds',
  both ds0 sel cols keep k ds -> link_loop fuel ml ds = (ds', Ok tt) ->
  exists sel' cols', both ds0 sel' cols' keep k ds'.
Proof.
  induction fuel as [|fuel IH]; intros sel cols keep k ml ds ds' H E; simpl in E.
  - destruct (links ds) as [l|]; [|injection E as <-; eauto].
    destruct (_ <? _); [discriminate | injection E as <-; eauto].
  - destruct (links ds) as [l|] eqn:El; [|injection E as <-; eauto].
    destruct (_ <? _); [|injection E as <-; eauto].
    destruct (reorder ds (sufficient_docs l ml)) as [ds1 [[]|e]] eqn:Er; [|discriminate].
    destruct (select _ (order ds1)) as [o|e]; [|discriminate].
    destruct (both_reorder _ _ _ _ _ _ _ _ H Er) as (sel' & cols' & H').
    eapply IH; [|exact E]. apply both_set_order. exact H'.
Qed.

Lemma both_prune ds0 sel cols keep k sh mu ml ds ds' o :
  both ds0 sel cols keep k ds -> prune_and_shuffle sh mu ml ds = (ds', Ok o) ->
  exists sel' cols', both ds0 sel' cols' keep k ds'.
Proof.
  intros H E. apply prune_inv in E as (_ & ds1 & E). cbv zeta in E.
  destruct E as (_ & Er & _ & E).
  destruct (both_reorder _ _ _ _ _ _ _ _ (both_set_order _ _ _ _ _ _ _ H) Er) as (sel' & cols' & H').
  destruct E as [(_ & ->) | (_ & _ & E)]; [eauto|]. eapply both_link_loop; eauto.
Qed.

Lemma both_split_half ds0 sel cols keep k ds range ds' :
  both ds0 sel cols keep k ds -> split_half ds range = Ok ds' ->
  exists sel', both ds0 sel' cols keep k ds'.
Proof.
  intros (H1 & H2) E. exists (compose (map Z.to_nat range) sel).
  split; [eapply coherent_split_half; eauto|].
  apply split_half_inv in E as (w & f & l & c & o & _ & _ & _ & El & _ & _ & E).
  apply construct_ok in E as (_ & _ & L & _). unfold links_from in *. rewrite L.
  destruct (links ds) as [m|], l as [l|]; try contradiction; destruct (links ds0); try contradiction; auto.
  destruct El as (El & Ec), H2 as (H2 & Hc). split; [eapply rows_from_select; eauto | congruence].
Qed.

Lemma both_step ds0 sel cols keep k ds o ds' :
  keeps_weights o -> both ds0 sel cols keep k ds -> step ds o = Ok ds' ->
  exists sel' cols' keep' k', both ds0 sel' cols' keep' k' ds'.
Proof.
  intros Hk H E. destruct o; simpl in E; unfold lift_state in E; try contradiction.
  - destruct (reorder ds o) as [ds1 [[]|e]] eqn:Er; [|discriminate]. injection E as <-.
    destruct (both_reorder _ _ _ _ _ _ _ _ H Er) as (? & ? & ?); eauto.
  - destruct (prune_and_shuffle _ _ _ _) as [ds1 [r|e]] eqn:Er; [|discriminate]. injection E as <-.
    destruct (both_prune _ _ _ _ _ _ _ _ _ _ _ H Er) as (? & ? & ?); eauto.
  - apply bind_ok in E as ([tr qu] & E & [= <-]). unfold cross_valid_split in E.
    apply bind_ok in E as ([a b] & _ & E). apply bind_ok in E as (t & E & E2).
    apply bind_ok in E2 as (q & E2 & [= <- <-]).
    destruct (both_split_half _ _ _ _ _ _ _ _ H E) as (? & ?); eauto.
  - apply bind_ok in E as ([tr qu] & E & [= <-]). unfold cross_valid_split in E.
    apply bind_ok in E as ([a b] & _ & E). apply bind_ok in E as (t & E & E2).
    apply bind_ok in E2 as (q & E2 & [= <- <-]).
    destruct (both_split_half _ _ _ _ _ _ _ _ H E2) as (? & ?); eauto.
  - destruct H as (H1 & H2). exists sel, cols, keep, k. split.
    + eapply (coherent_construct _ _ _ _ ds); [|exact E]. destruct ds; exact H1.
    + apply construct_ok in E as (_ & _ & L & _). eapply links_from_ext; eauto.
  - destruct H as (H1 & H2). destruct (coherent_minfreq _ _ _ _ _ _ _ H1 E) as (keep' & H1').
    exists sel, cols, keep', k. split; [exact H1'|].
    unfold words_with_min_freq in E.
    apply bind_ok in E as (w & Ew & E). destruct (dict ds) as [| |dl]; try discriminate.
    apply bind_ok in E as (dl' & _ & E). apply construct_ok in E as (_ & _ & L & _).
    eapply links_from_ext; eauto.
  - destruct (add_intercept ds) as [ds1 [r|e]] eqn:Er; [|discriminate]. injection E as <-.
    destruct H as (H1 & H2). destruct (coherent_intercept _ _ _ _ _ _ _ H1 Er) as (k' & H1').
    exists sel, cols, keep, k'. split; [exact H1'|]. eapply links_from_ext; [|exact H2].
    unfold add_intercept in Er. destruct (feats ds); [|injection Er as <- _; reflexivity].
    destruct (fcols _ =? 0); [discriminate|].
    destruct (forallb _ _); injection Er as <- _; reflexivity.
Qed.

Lemma both_run ds0 ops : forall sel cols keep k ds ds', Forall keeps_weights ops ->
  both ds0 sel cols keep k ds -> run ds ops = Ok ds' ->
  exists sel' cols' keep' k', both ds0 sel' cols' keep' k' ds'.
Proof.
  induction ops as [|o ops IH]; intros sel cols keep k ds ds' HF H E; simpl in E.
  - injection E as <-. eauto 6.
  - apply bind_ok in E as (ds1 & E1 & E). inversion HF; subst.
    destruct (both_step _ _ _ _ _ _ _ _ ltac:(eassumption) H E1) as (? & ? & ? & ? & H1). eauto.
Qed.

(** ** Cross-validation halves *)

Lemma select_rows_from {A} idx (l l' : list A) : select idx l = Ok l' -> rows_from eq idx l l'.
Proof.
  intros H. apply mapM_ok_Forall2 in H. unfold rows_from.
  induction H as [|i b o r Hi _ IH]; constructor; auto. apply get_ok in Hi. eauto.
Qed.

Lemma rows_from_eq_select {A} idx (l l' : list A) : rows_from eq idx l l' -> select idx l = Ok l'.
Proof.
  intros H. apply mapM_ok_Forall2. unfold rows_from in H.
  induction H as [|i b o r (a & Hi & <-) _ IH]; constructor; auto. apply get_ok; assumption.
Qed.

Lemma split_half_complete ds range ds' : split_half ds range = Ok ds' ->
  complete_rows (map Z.to_nat range) ds ds'.
Proof.
  intros E. apply split_half_inv in E as (w & f & l & c & o & Ew & Ewc & Ef & El & Ec & Eo & E).
  apply construct_ok in E as (W & F & L & Dd & C & _ & _ & _ & _ & O).
  unfold complete_rows. rewrite W, F, L, Dd, C, O. simpl. repeat split; auto.
  - apply select_rows_from; assumption.
  - unfold select_feats, select_frows in Ef. destruct (feats ds) as [f0|].
    + apply bind_ok in Ef as (g & Ef & [= <-]). apply bind_ok in Ef as (rs & Ef & [= <-]).
      simpl. apply select_rows_from; assumption.
    + injection Ef as <-. exact I.
  - destruct (links ds), l; try contradiction; auto. destruct El as (El & Hc).
    split; [apply select_rows_from; assumption | assumption].
  - unfold index_cats in Ec. destruct (cats ds); try discriminate; subst; auto.
    apply bind_ok in Ec as (l' & Ec & [= <-]). apply select_rows_from; assumption.
  - destruct (_ && _); apply select_rows_from; assumption.
Qed.

Lemma split_half_total ds range :
  0 < length range -> Forall (fun z => (0 <= z < Z.of_nat (doc_count ds))%Z) range ->
  (match feats ds with None => True | Some f => length (frows f) = doc_count ds end) ->
  (match links ds with None => True | Some m => nrows m = doc_count ds end) ->
  (match cats ds with NoCats => True | PyList _ => False | NpArr l => length l = doc_count ds end) ->
  length (order ds) = doc_count ds ->
  exists ds', split_half ds range = Ok ds'.
Proof.
  intros Hne HR Hf Hl Hc Ho. unfold split_half.
  assert (HI : Forall (fun j => j < doc_count ds) (map Z.to_nat range)).
  { apply Forall_map. eapply Forall_impl; [|exact HR]. simpl; lia. }
  set (idx := map Z.to_nat range) in *.
  assert (HL : length idx = length range) by apply map_length.
  destruct (select_total idx (srows (words ds)) HI) as (w & Ew).
  unfold select_rows at 1. rewrite Ew. cbn [bind].
  pose proof (select_length _ _ _ Ew) as Lw.
  assert (exists f, select_feats idx (feats ds) = Ok f /\
    match f with None => True | Some f => length (frows f) = length idx end) as (f & Ef & Lf).
  { unfold select_feats, select_frows. destruct (feats ds) as [f|]; [|eauto].
    destruct (select_total idx (frows f)) as (g & Eg); [rewrite Hf; exact HI|].
    rewrite Eg. cbn [bind]. eexists; split; [reflexivity|]. simpl. eapply select_length; eauto. }
  rewrite Ef. cbn [bind].
  assert (exists l, (match links ds with
          | None => Ok None
          | Some m => do r <- select_rows idx m; Ok (Some r)
          end) = Ok l /\ match l with None => True | Some l => nrows l = length idx end) as (l & El & Ll).
  { destruct (links ds) as [m|]; [|eauto]. unfold select_rows.
    destruct (select_total idx (srows m)) as (g & Eg); [unfold nrows in Hl; rewrite Hl; exact HI|].
    rewrite Eg. cbn [bind]. eexists; split; [reflexivity|]. unfold nrows. simpl. eapply select_length; eauto. }
  rewrite El. cbn [bind].
  assert (exists c, (match cats ds with NoCats => Ok NoCats | c => index_cats idx c end) = Ok c /\
      match cats_len c with None => True | Some n => n = length idx end) as (c & Ec & Lc).
  { destruct (cats ds) as [|x|x]; [eexists; split; [reflexivity|exact I] | contradiction|].
    unfold index_cats. destruct (select_total idx x) as (g & Eg); [rewrite Hc; exact HI|].
    rewrite Eg. cbn [bind]. eexists; split; [reflexivity|]. simpl. eapply select_length; eauto. }
  rewrite Ec. cbn [bind].
  destruct (select_total idx (order ds)) as (o & Eo); [rewrite Ho; exact HI|].
  rewrite Eo. cbn [bind].
  apply construct_succeeds; unfold nrows in *; cbn [srows].
  - lia.
  - destruct f; auto. lia.
  - destruct l; auto. lia.
  - destruct (cats_len c); auto. lia.
Qed.

Lemma map_to_nat_zrange n : map Z.to_nat (zrange 0 (Z.of_nat n)) = seq 0 n.
Proof.
  unfold zrange. rewrite Z.sub_0_r, Nat2Z.id, map_map. rewrite <- (map_id (seq 0 n)) at 2.
  apply map_ext. intros; lia.
Qed.

(** ** Pruning *)

Lemma sumZ_incl (f : nat -> Z) T S : NoDup T -> incl T S ->
  (forall d, (0 <= f d)%Z) -> (sumZ (map f T) <= sumZ (map f S))%Z.
Proof.
  intros Hnd. revert S. induction Hnd as [|a T Ha Hnd IH]; intros S Hin Hf.
  - clear Hin. induction S as [|s S IHS]; simpl in *; [lia|]. specialize (Hf s). lia.
  - assert (In a S) as HaS by (apply Hin; left; auto).
    apply in_split in HaS as (S1 & S2 & ->).
    assert (incl T (S1 ++ S2)).
    { intros x Hx. specialize (Hin x (or_intror Hx)). apply in_app_iff in Hin.
      apply in_app_iff. simpl in Hin. destruct Hin as [|[->|]]; auto. contradiction. }
    specialize (IH (S1 ++ S2) H Hf). rewrite map_app, sumZ_app in *. simpl. lia.
Qed.

Lemma sget_nonneg r c : Forall (fun e => (0 <= snd e)%Z) r -> (0 <= sget r c)%Z.
Proof.
  induction 1 as [|e r He _ IH]; [cbn; lia|]. rewrite sget_cons. destruct (_ =? _); lia.
Qed.

Lemma mget_nonneg m d c : Forall (Forall (fun e => (0 <= snd e)%Z)) (srows m) -> (0 <= mget m d c)%Z.
Proof.
  intros H. unfold mget. destruct (nth_error (srows m) d) as [r|] eqn:E; [|lia].
  apply sget_nonneg. rewrite Forall_forall in H. apply H. eapply nth_error_In; eauto.
Qed.

Lemma filter_eqb_nodup c n : length (filter (fun x => c =? x) (seq 0 n)) = if c <? n then 1 else 0.
Proof.
  induction n as [|n IH]; [reflexivity|].
  rewrite seq_S, filter_app, app_length, IH. simpl.
  destruct (Nat.eqb_spec c n); subst; simpl.
  - rewrite Nat.ltb_irrefl. destruct (Nat.ltb_spec n (S n)); lia.
  - destruct (Nat.ltb_spec c n), (Nat.ltb_spec c (S n)); lia.
Qed.

Lemma row_nnz_unique r n : NoDup (map fst r) -> Forall (fun e => fst e < n) r ->
  row_nnz r = length (filter (fun c => negb (sget r c =? 0)%Z) (seq 0 n)).
Proof.
  intros Hnd Hb. induction r as [|[c v] r IH].
  - cbn. induction (seq 0 n); simpl; auto.
  - inversion Hnd as [|? ? Hc Hnd']; subst. inversion Hb as [|? ? Hcn Hb']; subst.
    cbn [fst] in *. specialize (IH Hnd' Hb').
    assert (Hz : sget r c = 0%Z).
    { clear -Hc. induction r as [|[c' v'] r IHr]; [reflexivity|].
      rewrite sget_cons. cbn [fst snd]. simpl in Hc.
      destruct (Nat.eqb_spec c' c); [tauto|]. rewrite IHr; auto. }
    assert (G : length (filter (fun x => negb (sget ((c, v) :: r) x =? 0)%Z) (seq 0 n))
              = (if (v =? 0)%Z then 0 else 1) + length (filter (fun x => negb (sget r x =? 0)%Z) (seq 0 n))).
    { pose proof (filter_eqb_nodup c n) as Hone.
      destruct (Nat.ltb_spec c n); [|lia]. clear -Hone Hz.
      destruct (Z.eqb_spec v 0) as [->|Hv].
      - simpl. apply f_equal, filter_ext. intros x. rewrite sget_cons. cbn [fst snd].
        destruct (c =? x); rewrite Z.add_0_l; reflexivity.
      - assert (L : forall s, length (filter (fun x => negb (sget ((c, v) :: r) x =? 0)%Z) s)
           = length (filter (fun x => c =? x) s) + length (filter (fun x => negb (sget r x =? 0)%Z) s)).
        { induction s as [|x s IHs]; simpl; [reflexivity|].
          rewrite (sget_cons (c,v) r x). cbn [fst snd].
          destruct (Nat.eqb_spec c x) as [<-|].
          - rewrite Hz, Z.add_0_r. destruct (Z.eqb_spec v 0); [contradiction|].
            simpl. rewrite IHs. reflexivity.
          - rewrite Z.add_0_l. destruct (sget r x =? 0)%Z; simpl; rewrite IHs; lia. }
        rewrite L, Hone. reflexivity. }
    rewrite G. unfold row_nnz in *. simpl. destruct (v =? 0)%Z; simpl; lia.
Qed.

Lemma good_rows_spec ds mu d : prunable ds ->
  (In d (good_rows (words ds) mu) <-> enough_words ds mu d).
Proof.
  intros (Hcan & Hwf & _). unfold good_rows, enough_words, ge_q. rewrite where_In.
  assert (K : forall r, nth_error (srows (words ds)) d = Some r ->
            row_nnz r = unique_words (words ds) d).
  { intros r E. unfold unique_words, mget. rewrite E. apply row_nnz_unique.
    - rewrite Forall_forall in Hcan. apply Hcan. eapply nth_error_In; eauto.
    - unfold swf in Hwf. rewrite Forall_forall in Hwf. apply Hwf. eapply nth_error_In; eauto. }
  split.
  - intros (r & E & H). split; [apply nth_error_Some; congruence|].
    apply Qle_bool_iff in H. rewrite (K r E) in H. exact H.
  - intros (Hd & H). destruct (nth_error (srows (words ds)) d) as [r|] eqn:E.
    + exists r. split; auto. apply Qle_bool_iff. rewrite (K r eq_refl). exact H.
    + apply nth_error_None in E. unfold doc_count, nrows in Hd. lia.
Qed.

(** Loop invariant. *)
Record PInv (ds0 : dataset) (mu ml : Q) (ds : dataset) : Prop := {
  pi_restr : restricted (order ds) ds0 ds;
  pi_nodup : NoDup (order ds);
  pi_words : forall d, In d (order ds) -> enough_words ds0 mu d;
  pi_swf : match links ds with None => True | Some m => swf m end;
  pi_max : forall T, self_supporting ds0 mu ml T -> incl T (order ds)
}.

Lemma restricted_lengths o ds0 ds : restricted o ds0 ds ->
  doc_count ds = length o /\ length (order ds) = length o /\
  (match links ds with None => True | Some m => nrows m = length o /\ scols m = length o end) /\
  (match feats ds with None => True | Some f => length (frows f) = length o end) /\
  (exists l, cats ds = NpArr l /\ length l = length o).
Proof.
  intros (Hw & _ & Hf & Hl & Hc & Ho). repeat split.
  - unfold doc_count, nrows. eapply rows_from_length; eauto.
  - congruence.
  - destruct (links ds), (links ds0); try contradiction; auto. destruct Hl as (Hl & Hcc).
    split; [unfold nrows; eapply rows_from_length; eauto | assumption].
  - destruct (feats ds), (feats ds0); try contradiction; auto. eapply rows_from_length; eauto.
  - destruct (cats ds) as [|x|x], (cats ds0); try contradiction. exists x. split; auto.
    eapply rows_from_length; eauto.
Qed.

(** Reordering a restriction by in-range indices succeeds and is the
    restriction to the composed index list. *)
Lemma reorder_restricted ds0 ds S idx o' :
  restricted S ds0 ds -> Forall (fun i => i < length S) idx ->
  (match links ds with None => True | Some m => swf m end) ->
  exists ds', reorder ds idx = (ds', Ok tt) /\ order ds' = order ds /\
    restricted (compose idx S) ds0 (set_order ds' (compose idx S)) /\
    (match links ds' with None => True | Some m => swf m end) /\
    (o' = compose idx S -> restricted (compose idx S) ds0 (set_order ds' o')).
Proof.
  intros HR HI Hswf.
  destruct (restricted_lengths _ _ _ HR) as (Lw & Lo & Ll & Lf & (lc & Ec & Lc)).
  destruct HR as (Hw & Hwc & Hf & Hl & Hc & Ho).
  destruct (select_total idx (srows (words ds))) as (w & Ew); [unfold doc_count, nrows in Lw; rewrite Lw; exact HI|].
  destruct (select_total idx lc) as (c & Ecs); [rewrite Lc; exact HI|].
  unfold reorder. unfold select_rows at 1. rewrite Ew. cbn [bind set_words cats].
  rewrite Ec. unfold index_cats. rewrite Ecs. cbn [bind].
  assert (exists f, select_feats idx (feats ds) = Ok f /\
     match feats ds0, f with
     | None, None => True
     | Some f, Some f' => rows_from eq (compose idx S) (frows f) (frows f')
     | _, _ => False end) as (f & Ef & Hf').
  { unfold select_feats, select_frows. destruct (feats ds) as [f|].
    - destruct (feats ds0) as [f0|]; [|contradiction].
      destruct (select_total idx (frows f)) as (g & Eg); [rewrite Lf; exact HI|].
      rewrite Eg. cbn [bind]. eexists; split; [reflexivity|]. simpl. eapply rows_from_select; eauto.
    - destruct (feats ds0); [contradiction|]. eauto. }
  cbn [set_cats set_words feats]. rewrite Ef. cbn [set_feats set_cats set_words links].
  assert (exists l, reorder_link_matrix (links ds) idx = Ok l /\
     (match links ds0, l with
     | None, None => True
     | Some m, Some m' => rows_from (same_at (compose idx S)) (compose idx S) (srows m) (srows m') /\
                          scols m' = length (compose idx S)
     | _, _ => False end) /\ match l with None => True | Some m => swf m end) as (l & El & Hl' & Hswf').
  { unfold reorder_link_matrix. destruct (links ds) as [m|].
    - destruct (links ds0) as [m0|]; [|contradiction]. destruct Ll as (L1 & L2). destruct Hl as (Hl & Hlc).
      rewrite L1, L2, Nat.eqb_refl.
      destruct (select_total idx (srows m)) as (g & Eg); [unfold nrows in L1; rewrite L1; exact HI|].
      unfold select_rows. rewrite Eg. cbn [bind]. unfold select_cols. cbn [scols srows].
      rewrite (proj2 (forallb_forall _ idx)).
      2:{ intros x Hx. apply Nat.ltb_lt. rewrite Hlc. rewrite Forall_forall in HI. auto. }
      cbn [bind]. eexists; split; [reflexivity|]. split.
      + split; [|unfold compose; rewrite map_length; reflexivity]. cbn [srows].
        eapply rows_from_map; [|eapply rows_from_select; eassumption].
        intros a b. apply same_at_select_cols. exact HI.
      + unfold swf. cbn [srows scols]. apply Forall_forall. intros r Hr.
        apply in_map_iff in Hr as (r' & <- & _). apply Forall_forall. intros e He.
        unfold select_cols_row in He. apply in_flat_map in He as (e' & _ & He).
        apply in_map_iff in He as (j & <- & Hj). cbn [fst]. apply in_positions in Hj.
        apply nth_error_Some. congruence.
    - destruct (links ds0); [contradiction|]. eauto. }
  rewrite El. eexists. split; [reflexivity|]. cbn [order set_links set_feats set_cats set_words].
  split; [reflexivity|].
  assert (G : restricted (compose idx S) ds0
     (mkDS (mkS w (scols (words ds))) f l (dict ds) (NpArr c) (compose idx S))).
  { unfold restricted. cbn [words feats links cats order srows scols]. repeat split; auto.
    - eapply rows_from_select; eauto.
    - rewrite Ec in Hc. destruct (cats ds0); try contradiction. eapply rows_from_select; eauto. }
  split; [exact G|]. split; [exact Hswf'|]. intros ->. exact G.
Qed.

Lemma rows_from_nth {A B} (R : A -> B -> Prop) sel orig new i b :
  rows_from R sel orig new -> nth_error new i = Some b ->
  exists s a, nth_error sel i = Some s /\ nth_error orig s = Some a /\ R a b.
Proof.
  intros H E. destruct (Forall2_nth_error_r _ _ _ _ _ H E) as (s & Hs & a & Ha & HR). eauto.
Qed.

Lemma map_seq_nth (f g : nat -> Z) (S : list nat) :
  (forall j c, nth_error S j = Some c -> f j = g c) ->
  map f (seq 0 (length S)) = map g S.
Proof.
  intros H. apply nth_error_ext. intros i. rewrite !nth_error_map.
  destruct (Nat.lt_ge_cases i (length S)) as [L|L].
  - rewrite (nth_error_nth' (seq 0 (length S)) 0) by (rewrite seq_length; lia).
    rewrite seq_nth by lia. simpl.
    destruct (nth_error S i) as [c|] eqn:E; [|apply nth_error_None in E; lia].
    simpl. f_equal. apply H; assumption.
  - rewrite !(proj2 (nth_error_None _ _)) by (rewrite ?seq_length; lia). reflexivity.
Qed.

(** Row sums of a restricted square matrix are sums of original links inside. *)
Lemma restricted_row_sum ds0 ds S m0 m i r : restricted S ds0 ds ->
  links ds0 = Some m0 -> links ds = Some m -> swf m -> nth_error (srows m) i = Some r ->
  exists s, nth_error S i = Some s /\ row_sum r = links_within m0 s S.
Proof.
  intros (_ & _ & _ & Hl & _ & _) E0 E Hs Hr. rewrite E0, E in Hl. destruct Hl as (Hl & Hc).
  destruct (rows_from_nth _ _ _ _ _ _ Hl Hr) as (s & a & Hsn & Ha & HR).
  exists s. split; auto. rewrite (row_sum_dense r (length S)).
  - unfold links_within. f_equal. apply map_seq_nth. intros j c Hj.
    rewrite (HR j c Hj). unfold mget. rewrite Ha. reflexivity.
  - rewrite <- Hc. unfold swf in Hs. rewrite Forall_forall in Hs. apply Hs. eapply nth_error_In; eauto.
Qed.

Lemma sufficient_spec ds0 ds S m0 m ml i : restricted S ds0 ds ->
  links ds0 = Some m0 -> links ds = Some m -> swf m ->
  (In i (sufficient_docs m ml) <->
   exists s, nth_error S i = Some s /\ (ml <= inject_Z (links_within m0 s S))%Q).
Proof.
  intros HR E0 E Hs. unfold sufficient_docs, ge_q. rewrite where_In. split.
  - intros (r & Hr & H). destruct (restricted_row_sum _ _ _ _ _ _ _ HR E0 E Hs Hr) as (s & Hsn & Hsum).
    exists s. split; auto. apply Qle_bool_iff in H. rewrite Hsum in H. exact H.
  - intros (s & Hsn & H).
    destruct (restricted_lengths _ _ _ HR) as (_ & _ & Ll & _). rewrite E in Ll.
    destruct (nth_error (srows m) i) as [r|] eqn:Er.
    + exists r. split; auto. destruct (restricted_row_sum _ _ _ _ _ _ _ HR E0 E Hs Er) as (s' & Hsn' & Hsum).
      apply Qle_bool_iff. rewrite Hsum. congruence.
    + apply nth_error_None in Er. assert (i < length S) by (apply nth_error_Some; congruence).
      unfold nrows in Ll. lia.
Qed.

Lemma compose_select idx S : Forall (fun i => i < length S) idx -> select idx S = Ok (compose idx S).
Proof.
  induction 1 as [|i idx Hi _ IH]; [reflexivity|]. unfold select in *. simpl.
  unfold get_ at 1. rewrite (nth_error_nth' S 0 Hi). simpl. rewrite IH. reflexivity.
Qed.

Lemma in_compose idx S s : Forall (fun i => i < length S) idx ->
  (In s (compose idx S) <-> exists i, In i idx /\ nth_error S i = Some s).
Proof.
  intros HI. unfold compose. rewrite in_map_iff. rewrite Forall_forall in HI. split.
  - intros (i & <- & Hi). exists i. split; auto. apply nth_error_nth'. auto.
  - intros (i & Hi & E). exists i. split; auto. erewrite nth_error_nth by eassumption. reflexivity.
Qed.

Lemma compose_NoDup idx S : Forall (fun i => i < length S) idx -> NoDup idx -> NoDup S ->
  NoDup (compose idx S).
Proof.
  intros HI Hi HS. induction Hi as [|i idx Hni Hi IH]; simpl; [constructor|].
  inversion HI as [|? ? Hlt HI']; subst. constructor; auto.
  intros Hin. apply (in_compose idx S _ HI') in Hin as (j & Hj & E).
  assert (i = j); [|subst; contradiction].
  eapply NoDup_nth_error; eauto. rewrite E. apply nth_error_nth'. assumption.
Qed.

Lemma link_loop_correct ds0 mu ml : prunable ds0 -> forall fuel ds,
  PInv ds0 mu ml ds -> length (order ds) <= fuel -> links ds <> None ->
  exists ds', link_loop fuel ml ds = (ds', Ok tt) /\ PInv ds0 mu ml ds' /\
    self_supporting ds0 mu ml (order ds').
Proof.
  intros HP. induction fuel as [|fuel IH]; intros ds HI Hfuel Hlk;
    destruct (links ds) as [m|] eqn:El; try congruence; clear Hlk.
  - (* no documents left *)
    destruct HI as [HR Hnd Hw Hs Hm]. destruct (restricted_lengths _ _ _ HR) as (_ & _ & Ll & _).
    rewrite El in Ll. simpl. rewrite El.
    destruct (Nat.ltb_spec (length (sufficient_docs m ml)) (nrows m)); [lia|].
    exists ds. split; [reflexivity|]. split; [constructor; auto|]. split; [exact Hnd|].
    intros d Hd. exfalso. destruct (order ds); [contradiction | simpl in *; lia].
  - destruct HI as [HR Hnd Hw Hs Hm]. simpl. rewrite El.
    destruct (restricted_lengths _ _ _ HR) as (_ & _ & Ll & _). rewrite El in Ll, Hs.
    destruct Ll as (Ll1 & Ll2).
    destruct (links ds0) as [m0|] eqn:E0.
    2:{ destruct HR as (_ & _ & _ & HR & _). rewrite E0, El in HR. contradiction. }
    set (S := order ds) in *.
    assert (Hsuff : Forall (fun i => i < length S) (sufficient_docs m ml)).
    { apply Forall_forall. intros i Hi.
      apply (sufficient_spec _ _ _ _ _ ml i HR E0 El Hs) in Hi as (s & Hi & _).
      apply nth_error_Some. congruence. }
    destruct (Nat.ltb_spec (length (sufficient_docs m ml)) (nrows m)) as [Hlt|Hge].
    + destruct (reorder_restricted ds0 ds S (sufficient_docs m ml) S HR Hsuff) as (ds1 & Er & Eo & HR1 & Hs1 & _).
      { rewrite El. exact Hs. }
      rewrite Er, Eo. fold S. rewrite (compose_select _ _ Hsuff). cbn [bind].
      apply IH.
      * constructor; cbn [set_order order links]; auto.
        -- apply compose_NoDup; auto. apply where_NoDup.
        -- intros d Hd. apply (in_compose _ _ _ Hsuff) in Hd as (i & _ & Hi). apply Hw.
           eapply nth_error_In; eauto.
        -- intros T HT d Hd. apply (in_compose _ _ _ Hsuff).
           pose proof (Hm T HT) as Hin. destruct HT as (HTnd & HT).
           destruct (In_nth_error _ _ (Hin d Hd)) as (i & Hi). exists i. split; auto.
           apply (sufficient_spec _ _ _ _ _ ml i HR E0 El Hs). exists d. split; auto.
           destruct (HT d Hd) as (_ & HL). rewrite E0 in HL.
           eapply Qle_trans; [exact HL|]. rewrite <- Zle_Qle.
           apply sumZ_incl; auto. intros c. apply mget_nonneg.
           destruct HP as (_ & _ & _ & HP & _). rewrite E0 in HP. apply HP.
      * cbn [set_order order]. unfold compose. rewrite map_length. lia.
      * cbn [set_order links]. destruct HR1 as (_ & _ & _ & HR1 & _). rewrite E0 in HR1.
        cbn [set_order links] in HR1. destruct (links ds1); [discriminate|contradiction].
    + exists ds. split; [reflexivity|]. split; [constructor; auto; rewrite ?El; auto|].
      split; [exact Hnd|]. intros d Hd. split; [auto|]. rewrite E0.
      destruct (In_nth_error _ _ Hd) as (i & Hi).
      assert (In i (sufficient_docs m ml)) as Hin.
      { assert (Hlen : length (sufficient_docs m ml) = length (srows m)).
        { pose proof (filter_len_le (fun r => ge_q (row_sum r) ml) (srows m)).
          unfold sufficient_docs in *. rewrite where_length in *. unfold nrows in *. lia. }
        unfold sufficient_docs in Hlen. rewrite where_length in Hlen.
        apply filter_length_eq in Hlen. unfold sufficient_docs. apply where_In.
        destruct (nth_error (srows m) i) as [r|] eqn:Er.
        - exists r. split; auto. rewrite Forall_forall in Hlen. apply Hlen. eapply nth_error_In; eauto.
        - apply nth_error_None in Er.
          assert (i < length S) by (apply nth_error_Some; unfold S; congruence).
          unfold nrows in *. lia. }
      apply (sufficient_spec _ _ _ _ _ ml i HR E0 El Hs) in Hin as (s & Hs' & HL).
      unfold S in Hs'. rewrite Hi in Hs'. injection Hs' as <-. exact HL.
Qed.

Lemma restricted_id ds : prunable ds -> restricted (seq 0 (doc_count ds)) ds (set_order ds (seq 0 (doc_count ds))).
Proof.
  intros (_ & _ & Hf & Hl & (lc & Ec & Lc)). unfold restricted, set_order. simpl. repeat split.
  - apply rows_from_id; auto.
  - destruct (feats ds) as [f|]; auto. rewrite <- Hf. apply rows_from_id; auto.
  - destruct (links ds) as [m|]; auto. destruct Hl as (Hl & Hc & _). split.
    + rewrite <- Hl. apply rows_from_id. intros r. apply same_at_id.
    + rewrite seq_length. assumption.
  - rewrite Ec. rewrite <- Lc. apply rows_from_id; auto.
Qed.

Lemma compose_seq idx n : Forall (fun i => i < n) idx -> compose idx (seq 0 n) = idx.
Proof.
  intros H. unfold compose. rewrite <- (map_id idx) at 2. apply map_ext_in. intros i Hi.
  rewrite Forall_forall in H. rewrite seq_nth; [reflexivity|]. auto.
Qed.

Lemma prune_correct sh mu ml ds : (forall l, Permutation (sh l) l) -> prunable ds ->
  0 < doc_count ds -> (doc_count ds = 1 -> enough_words ds mu 0) ->
  exists ds' o, prune_and_shuffle sh mu ml ds = (ds', Ok o) /\
    order ds' = o /\ self_supporting ds mu ml o /\
    (forall T, self_supporting ds mu ml T -> incl T o) /\
    restricted o ds ds'.
Proof.
  intros Hsh HP HD H1. unfold prune_and_shuffle.
  destruct (Nat.eqb_spec (doc_count ds) 0) as [|_]; [lia|].
  set (good := good_rows (words ds) mu).
  assert (Hgood : forall d, In d good <-> enough_words ds mu d) by (intros; apply good_rows_spec; assumption).
  assert (Hlen : length good <= doc_count ds).
  { unfold good, good_rows. rewrite where_length. apply filter_len_le. }
  assert (HI1 : forall d, In d (if length good <? doc_count ds then good else seq 0 (doc_count ds)) <->
                enough_words ds mu d).
  { destruct (Nat.ltb_spec (length good) (doc_count ds)) as [|Hge]; [exact Hgood|].
    intros d. rewrite in_seq. split.
    - intros (_ & Hd). apply Hgood. unfold good, good_rows in *. rewrite where_length in Hge.
      assert (Hall := filter_length_eq (fun r => ge_q (Z.of_nat (row_nnz r)) mu) (srows (words ds))).
      rewrite where_length in Hlen. unfold doc_count, nrows in *.
      specialize (Hall ltac:(lia)). apply where_In.
      destruct (nth_error (srows (words ds)) d) as [r|] eqn:Er.
      + exists r. split; auto. rewrite Forall_forall in Hall. apply Hall. eapply nth_error_In; eauto.
      + apply nth_error_None in Er. lia.
    - intros (Hd & _). lia. }
  assert (ND1 : NoDup (if length good <? doc_count ds then good else seq 0 (doc_count ds))).
  { destruct (_ <? _); [apply where_NoDup | apply seq_NoDup]. }
  replace ((length good <? doc_count ds) && (doc_count ds =? 1)) with false.
  2:{ symmetry. apply andb_false_iff. destruct (Nat.eqb_spec (doc_count ds) 1) as [E|]; [|auto].
      left. apply Nat.ltb_ge. rewrite E. apply H1 in E. apply Hgood in E.
      destruct good; [contradiction | simpl; lia]. }
  set (base := if length good <? doc_count ds then good else seq 0 (doc_count ds)) in *.
  set (ord := sh base).
  assert (Hord : forall d, In d ord <-> enough_words ds mu d).
  { intros d. rewrite <- HI1. split; apply Permutation_in; [|apply Permutation_sym]; apply Hsh. }
  assert (HB : Forall (fun i => i < length (seq 0 (doc_count ds))) ord).
  { apply Forall_forall. intros d Hd. apply Hord in Hd as (Hd & _). rewrite seq_length. exact Hd. }
  pose proof (restricted_id ds HP) as HR0.
  set (dsA := set_order ds (seq 0 (doc_count ds))) in *.
  assert (Hswf : match links dsA with None => True | Some m => swf m end).
  { unfold dsA. cbn [set_order links]. destruct HP as (_ & _ & _ & Hl & _).
    destruct (links ds); [apply Hl | exact I]. }
  destruct (reorder_restricted ds dsA _ ord ord HR0 HB Hswf) as (ds1 & Er & Eo & HR1 & Hs1 & _).
  assert (Hcomp : compose ord (seq 0 (doc_count ds)) = ord).
  { apply compose_seq. rewrite seq_length in HB. exact HB. }
  rewrite Hcomp in HR1.
  assert (Er' : reorder (set_order ds ord) ord = (set_order ds1 ord, Ok tt)).
  { revert Er. unfold dsA, reorder, set_order, set_words, set_cats, set_feats, set_links. simpl.
    destruct (select_rows ord (words ds)); [|discriminate].
    destruct (index_cats ord (cats ds)); [|discriminate].
    destruct (select_feats ord (feats ds)); [|discriminate].
    destruct (reorder_link_matrix (links ds) ord); [|discriminate].
    intros [= <-]. reflexivity. }
  rewrite Er'. cbn [set_order order links].
  assert (HNDo : NoDup ord).
  { eapply Permutation_NoDup; [apply Permutation_sym, Hsh | exact ND1]. }
  assert (HINV : PInv ds mu ml (set_order ds1 ord)).
  { constructor; cbn [set_order order links]; auto.
    - intros d. apply Hord.
    - intros T (_ & HT) d Hd. apply Hord. apply HT. exact Hd. }
  assert (Hlinks : match links ds, links ds1 with None, None => True | Some _, Some _ => True | _, _ => False end).
  { destruct HR1 as (_ & _ & _ & HR1 & _). cbn [set_order links] in HR1.
    destruct (links ds), (links ds1); auto. }
  destruct (Qeq_bool ml 0) eqn:Eml.
  - eexists _, _. split; [reflexivity|]. cbn [set_order order]. split; [reflexivity|].
    split; [|split; [apply HINV|exact HR1]].
    split; [exact HNDo|]. intros d Hd. split; [apply Hord; assumption|].
    destruct (links ds) as [m|] eqn:El; [|exact I].
    apply Qeq_bool_eq in Eml. rewrite Eml.
    change 0%Q with (inject_Z 0). rewrite <- Zle_Qle. unfold links_within.
    destruct HP as (_ & _ & _ & HP & _). rewrite El in HP. destruct HP as (_ & _ & _ & HP).
    clear -HP. induction ord as [|x o IH]; simpl; [lia|]. pose proof (mget_nonneg m d x HP). lia.
  - destruct (links ds1) as [m1|] eqn:El1.
    + destruct (link_loop_correct ds mu ml HP (doc_count (set_order ds1 ord)) (set_order ds1 ord) HINV)
        as (ds' & Ell & HI' & HS').
      * destruct (restricted_lengths _ _ _ HR1) as (-> & -> & _). lia.
      * cbn [set_order links]. congruence.
      * rewrite Ell. eexists _, _. split; [reflexivity|]. split; [reflexivity|].
        split; [exact HS'|]. split; [apply HI' | apply HI'].
    + eexists _, _. split; [reflexivity|]. cbn [set_order order]. split; [reflexivity|].
      split; [|split; [apply HINV|exact HR1]].
      split; [exact HNDo|]. intros d Hd. split; [apply Hord; assumption|].
      destruct (links ds); [contradiction|exact I].
Qed.
