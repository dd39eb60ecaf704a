(** Proofs for C07-C13 and the storage/rectangular-link findings. *)
From Coq Require Import List ZArith QArith Arith Bool Lia Permutation Lqa.
From Coq Require String Ascii.
From Verif Require Import Base SparseModel SparseProofs SplitModel SplitProofs
  DatasetModel DatasetSpec DatasetProofs PruneProofs.
Import ListNotations.
Open Scope nat_scope.

(** ** C07: the order of a dataset *)

Definition tracks (ds0 ds : dataset) : Prop := exists keep k, coherent ds0 (order ds) keep k ds.

(** Operations after which a correct order stays correct. *)
Definition order_safe (o : op) : Prop :=
  match o with OpReorder _ | OpPrune _ _ _ => False | _ => True end.

(** Operations that keep all rows in place. *)
Definition rows_kept (o : op) : Prop :=
  match o with OpReorder _ | OpPrune _ _ _ | OpTrain _ _ | OpQuery _ _ => False | _ => True end.

Lemma tracks_split_half ds0 ds range ds' :
  tracks ds0 ds -> split_half ds range = Ok ds' -> tracks ds0 ds'.
Proof.
  intros (keep & k & H) E. exists keep, k.
  pose proof (coherent_split_half _ _ _ _ _ _ _ H E) as H'.
  apply split_half_inv in E as (w & f & l & c & o & _ & _ & _ & _ & _ & Eo & E).
  apply construct_ok in E as (_ & _ & _ & _ & _ & _ & _ & _ & _ & O). simpl in O.
  rewrite O. pose proof (select_ok_bound _ _ _ Eo) as HB.
  rewrite (compose_select _ _ HB) in Eo. injection Eo as <-. exact H'.
Qed.

Lemma order_kept o : rows_kept o -> forall ds ds', step ds o = Ok ds' -> order ds' = order ds.
Proof.
  intros Hk ds ds' E. destruct o; try contradiction; simpl in E.
  - apply construct_ok in E as (_ & _ & _ & _ & _ & _ & _ & _ & _ & O). exact O.
  - unfold words_with_min_freq in E. apply bind_ok in E as (w & Ew & E).
    destruct (dict ds); try discriminate. apply bind_ok in E as (dl' & _ & E).
    apply construct_ok in E as (_ & _ & _ & _ & _ & _ & _ & _ & _ & O). exact O.
  - unfold lift_state, add_intercept in E. destruct (feats ds); [|injection E as <-; reflexivity].
    destruct (fcols _ =? 0); [discriminate|]. destruct (forallb _ _); injection E as <-; reflexivity.
  - unfold lift_state, convert_to_undirected in E. destruct (links ds); [|discriminate].
    destruct (madd _ _); [|discriminate]. injection E as <-. reflexivity.
  - unfold lift_state, convert_to_binary in E. destruct (links ds); [|discriminate].
    injection E as <-. reflexivity.
Qed.

Lemma coherent_kept o : rows_kept o -> forall ds0 sel keep k ds ds',
  coherent ds0 sel keep k ds -> step ds o = Ok ds' -> exists keep' k', coherent ds0 sel keep' k' ds'.
Proof.
  intros Hk ds0 sel keep k ds ds' H E. destruct o; try contradiction; simpl in E; unfold lift_state in E.
  - exists keep, k. eapply (coherent_construct _ _ _ _ ds); [|exact E]. destruct ds; exact H.
  - destruct (coherent_minfreq _ _ _ _ _ _ _ H E); eauto.
  - destruct (add_intercept ds) as [ds1 [r|e]] eqn:Er; [|discriminate]. injection E as <-.
    destruct (coherent_intercept _ _ _ _ _ _ _ H Er); eauto.
  - unfold convert_to_undirected in E. destruct (links ds) as [m|] eqn:El; [|discriminate].
    destruct (madd m (transpose m)) as [s|] eqn:Em; [|discriminate]. injection E as <-.
    eexists _, _. apply coherent_set_links; [eassumption|]. rewrite El. eapply madd_nrows; eauto.
  - unfold convert_to_binary in E. destruct (links ds) as [m|] eqn:El; [|discriminate].
    injection E as <-. eexists _, _. apply coherent_set_links; [eassumption|]. rewrite El.
    unfold nrows, fill_ones. simpl. apply map_length.
Qed.

Lemma tracks_step ds0 ds o ds' : order_safe o -> tracks ds0 ds -> step ds o = Ok ds' -> tracks ds0 ds'.
Proof.
  intros Hs H E.
  assert (C : rows_kept o \/ (exists f n, o = OpTrain f n) \/ (exists f n, o = OpQuery f n))
    by (destruct o; simpl in *; eauto; contradiction).
  destruct C as [Hk | [(f & n & ->) | (f & n & ->)]].
  - destruct H as (keep & k & H). destruct (coherent_kept _ Hk _ _ _ _ _ _ H E) as (keep' & k' & H').
    exists keep', k'. rewrite (order_kept _ Hk _ _ E). exact H'.
  - simpl in E. apply bind_ok in E as ([tr qu] & E & [= <-]). unfold cross_valid_split in E.
    apply bind_ok in E as ([a b] & _ & E). apply bind_ok in E as (t & E & E2).
    apply bind_ok in E2 as (q & E2 & [= <- <-]). eapply tracks_split_half; eauto.
  - simpl in E. apply bind_ok in E as ([tr qu] & E & [= <-]). unfold cross_valid_split in E.
    apply bind_ok in E as ([a b] & _ & E). apply bind_ok in E as (t & E & E2).
    apply bind_ok in E2 as (q & E2 & [= <- <-]). eapply tracks_split_half; eauto.
Qed.

Lemma tracks_run ds0 ops : forall ds ds', Forall order_safe ops -> tracks ds0 ds ->
  run ds ops = Ok ds' -> tracks ds0 ds'.
Proof.
  induction ops as [|o ops IH]; intros ds ds' HF H E; simpl in E.
  - injection E as <-. exact H.
  - apply bind_ok in E as (ds1 & E1 & E). inversion HF; subst.
    eapply IH; [eassumption | eapply tracks_step; eauto | eassumption].
Qed.

Lemma kept_run ds0 ops : forall sel keep k ds ds', Forall rows_kept ops -> coherent ds0 sel keep k ds ->
  run ds ops = Ok ds' -> order ds' = order ds /\ exists keep' k', coherent ds0 sel keep' k' ds'.
Proof.
  induction ops as [|o ops IH]; intros sel keep k ds ds' HF H E; simpl in E.
  - injection E as <-. eauto.
  - apply bind_ok in E as (ds1 & E1 & E). inversion HF as [|? ? Hk HF']; subst.
    destruct (coherent_kept _ Hk _ _ _ _ _ _ H E1) as (? & ? & H1).
    destruct (IH _ _ _ _ _ HF' H1 E) as (O & H2). rewrite O. split; [|exact H2].
    eapply order_kept; eauto.
Qed.

Lemma tracks_link_loop ds0 fuel : forall ml ds ds',
  tracks ds0 ds -> link_loop fuel ml ds = (ds', Ok tt) -> tracks ds0 ds'.
Proof.
  induction fuel as [|fuel IH]; intros ml ds ds' H E; simpl in E.
  - destruct (links ds) as [l|]; [|injection E as <-; eauto].
    destruct (_ <? _); [discriminate | injection E as <-; eauto].
  - destruct (links ds) as [l|] eqn:El; [|injection E as <-; eauto].
    destruct (_ <? _); [|injection E as <-; eauto].
    destruct (reorder ds (sufficient_docs l ml)) as [ds1 [[]|e]] eqn:Er; [|discriminate].
    destruct (select _ (order ds1)) as [o|e] eqn:Es; [|discriminate].
    eapply IH; [|exact E]. destruct H as (keep & k & H). exists keep, k.
    pose proof (coherent_reorder _ _ _ _ _ _ _ H Er) as H'.
    apply reorder_inv in Er as (w & c & f & l' & _ & _ & _ & _ & ->).
    cbn [order set_order] in *.
    pose proof (select_ok_bound _ _ _ Es) as HB.
    rewrite (compose_select _ _ HB) in Es. injection Es as <-.
    destruct H'; constructor; assumption.
Qed.

Lemma tracks_prune ds0 sel keep k ds sh mu ml ds' o :
  coherent ds0 sel keep k ds -> sel = seq 0 (doc_count ds) ->
  prune_and_shuffle sh mu ml ds = (ds', Ok o) -> tracks ds0 ds'.
Proof.
  intros H -> E. apply prune_inv in E as (_ & ds1 & E). cbv zeta in E.
  destruct E as (_ & Er & _ & E).
  set (ord := sh _) in *.
  assert (T1 : tracks ds0 ds1).
  { exists keep, k. pose proof (coherent_reorder _ _ _ _ _ _ _ (coherent_set_order _ _ _ _ _ ord H) Er) as H'.
    pose proof Er as Er'. apply reorder_inv in Er' as (w & c & f & l' & Ew & _ & _ & _ & ->).
    cbn [order set_order] in *. apply select_rows_ok in Ew as (Ew & _).
    apply select_ok_bound in Ew. rewrite compose_seq in H'; [exact H'|].
    cbn [set_order words] in Ew. exact Ew. }
  destruct E as [(_ & ->) | (_ & _ & E)]; [exact T1|]. eapply tracks_link_loop; eauto.
Qed.

(** ** C09: categories *)

Lemma ends_with_nl_add s : ends_with_nl (String.append s (String.String newline String.EmptyString)) = true.
Proof.
  induction s as [|a s IH]; [reflexivity|]. simpl.
  destruct (String.append s _) eqn:E; [destruct s; discriminate|]. exact IH.
Qed.

Lemma drop_last_add s a : drop_last (String.append s (String.String a String.EmptyString)) = s.
Proof.
  induction s as [|b s IH]; [reflexivity|]. simpl.
  destruct (String.append s _) eqn:E; [destruct s; discriminate|]. rewrite IH. reflexivity.
Qed.

(** ** C10, C11: link graphs *)

Lemma column_entries_sget m c i : i < nrows m -> sget (column_entries m c) i = mget m i c.
Proof.
  unfold column_entries, mget, nrows. intros Hi.
  assert (G : forall rs k, k <= i < k + length rs ->
    sget (concat (map (fun '(i, r) => map (fun e : nat * Z => (i, snd e)) (filter (fun e => fst e =? c) r))
              (combine (seq k (length rs)) rs))) i
    = match nth_error rs (i - k) with Some r => sget r c | None => 0%Z end).
  { clear. intros rs. 
    assert (N : forall ss k, i < k -> sget (concat (map (fun '(i, r) => map (fun e : nat * Z => (i, snd e)) (filter (fun e => fst e =? c) r))
              (combine (seq k (length ss)) ss))) i = 0%Z).
    { induction ss as [|r ss IH]; intros k Hk; [reflexivity|]. simpl. rewrite sget_app, IH by lia.
      assert (Z0 : forall l : srow, sget (map (fun e => (k, snd e)) l) i = 0%Z).
      { induction l as [|e l IHl]; [reflexivity|]. simpl. rewrite sget_cons. cbn [fst snd].
        destruct (Nat.eqb_spec k i); [lia|]. rewrite IHl. reflexivity. }
      rewrite Z0. reflexivity. }
    induction rs as [|r rs IH]; intros k Hk; simpl in *; [lia|].
    rewrite sget_app. destruct (Nat.eq_dec i k) as [->|Hne].
    - rewrite N, Nat.sub_diag by lia. simpl.
      assert (Z1 : forall l : srow, sget (map (fun e => (k, snd e)) l) k = sumZ (map snd l)).
      { induction l as [|e l IHl]; [reflexivity|]. simpl. rewrite sget_cons. cbn [fst snd].
        rewrite Nat.eqb_refl, IHl. reflexivity. }
      rewrite Z1. unfold sget. lia.
    - rewrite IH by lia. replace (i - k) with (S (i - S k)) by lia. simpl.
      assert (Z0 : forall l : srow, sget (map (fun e => (k, snd e)) l) i = 0%Z).
      { induction l as [|e l IHl]; [reflexivity|]. simpl. rewrite sget_cons. cbn [fst snd].
        destruct (Nat.eqb_spec k i); [lia|]. rewrite IHl. reflexivity. }
      rewrite Z0. lia. }
  etransitivity; [apply (G (srows m) 0); split; [apply Nat.le_0_l | exact Hi] | rewrite Nat.sub_0_r; reflexivity].
Qed.

Lemma transpose_mget m i j : i < nrows m -> j < scols m -> mget (transpose m) j i = mget m i j.
Proof.
  intros Hi Hj. unfold mget at 1, transpose. cbn [srows]. rewrite nth_error_map.
  rewrite (nth_error_nth' (seq 0 (scols m)) 0) by (rewrite seq_length; lia).
  rewrite seq_nth by lia. simpl. apply column_entries_sget; assumption.
Qed.

Lemma sget_filter_nz l c : sget (filter (fun e => negb (snd e =? 0)%Z) l) c = sget l c.
Proof.
  induction l as [|e l IH]; [reflexivity|]. simpl. rewrite sget_cons.
  destruct (Z.eqb_spec (snd e) 0) as [E|]; simpl; rewrite ?sget_cons, IH; [|reflexivity].
  destruct (_ =? _); lia.
Qed.

Lemma sget_tabulate (f : nat -> Z) l c : NoDup l ->
  sget (map (fun x => (x, f x)) l) c = if in_dec Nat.eq_dec c l then f c else 0%Z.
Proof.
  induction 1 as [|x l Hx Hnd IH]; [reflexivity|]. cbn [map]. rewrite sget_cons, IH. cbn [fst snd].
  destruct (Nat.eqb_spec x c) as [->|Hne].
  - destruct (in_dec Nat.eq_dec c l); [contradiction|].
    destruct (in_dec Nat.eq_dec c (c :: l)) as [|N]; [lia | exfalso; apply N; left; auto].
  - destruct (in_dec Nat.eq_dec c l) as [I|I];
      destruct (in_dec Nat.eq_dec c (x :: l)) as [I'|I']; simpl in *; try lia; exfalso.
    + apply I'; auto.
    + destruct I'; auto.
Qed.

Lemma canon_row_sget n r c : sget (canon_row n r) c = if c <? n then sget r c else 0%Z.
Proof.
  unfold canon_row. rewrite sget_filter_nz, sget_tabulate by apply seq_NoDup.
  destruct (in_dec Nat.eq_dec c (seq 0 n)) as [I|I]; rewrite in_seq in I;
    destruct (Nat.ltb_spec c n); auto; lia.
Qed.

Lemma canon_row_wf n r : NoDup (map fst (canon_row n r)) /\
  Forall (fun e => fst e < n /\ snd e <> 0%Z) (canon_row n r).
Proof.
  unfold canon_row. split.
  - assert (G : forall l, NoDup l -> NoDup (map fst (filter (fun e : nat * Z => negb (snd e =? 0)%Z) (map (fun c => (c, sget r c)) l)))).
    { induction 1 as [|x l Hx Hnd IH]; [constructor|]. simpl.
      destruct (Z.eqb_spec (sget r x) 0); simpl; auto. constructor; auto.
      intros Hin. apply in_map_iff in Hin as (e & Ee & Hin). apply filter_In in Hin as (Hin & _).
      apply in_map_iff in Hin as (y & <- & Hy). simpl in Ee. subst. contradiction. }
    apply G. apply seq_NoDup.
  - apply Forall_forall. intros e He. apply filter_In in He as (He & Hnz).
    apply in_map_iff in He as (c & <- & Hc). apply in_seq in Hc. cbn [fst snd] in *.
    split; [lia|]. apply negb_true_iff, Z.eqb_neq in Hnz. exact Hnz.
Qed.

Lemma nth_error_combine {A B} (l : list A) (r : list B) i :
  nth_error (combine l r) i = match nth_error l i, nth_error r i with
                              | Some a, Some b => Some (a, b) | _, _ => None end.
Proof.
  revert r i; induction l as [|a l IH]; intros [|b r] [|i]; simpl; auto.
  - destruct (nth_error l i); reflexivity.
Qed.

Lemma madd_mget a b s i j : madd a b = Ok s -> i < nrows a -> j < scols a ->
  mget s i j = (mget a i j + mget b i j)%Z.
Proof.
  unfold madd. destruct (Nat.eqb_spec (nrows a) (nrows b)) as [E|]; simpl; [|discriminate].
  destruct (scols a =? scols b); [|discriminate]. intros [= <-] Hi Hj.
  unfold mget. cbn [srows]. rewrite nth_error_map, nth_error_combine. unfold nrows in *.
  destruct (nth_error (srows a) i) as [x|] eqn:Ex; [|apply nth_error_None in Ex; lia].
  destruct (nth_error (srows b) i) as [y|] eqn:Ey; [|apply nth_error_None in Ey; lia].
  cbn [option_map]. rewrite canon_row_sget, sget_app. destruct (Nat.ltb_spec j (scols a)); [reflexivity|lia].
Qed.

Lemma fill_ones_mget m i j :
  Forall (fun r => NoDup (map fst r)) (srows m) -> Forall (Forall (fun e => snd e <> 0%Z)) (srows m) ->
  mget (fill_ones m) i j = if (mget m i j =? 0)%Z then 0%Z else 1%Z.
Proof.
  intros Hnd Hnz. unfold mget, fill_ones. cbn [srows]. rewrite nth_error_map.
  destruct (nth_error (srows m) i) as [r|] eqn:E; [|reflexivity]. simpl.
  rewrite Forall_forall in Hnd, Hnz. apply nth_error_In in E.
  specialize (Hnd r E). specialize (Hnz r E). clear E.
  induction r as [|[c v] r IH]; [reflexivity|]. simpl.
  inversion Hnd as [|? ? Hc Hnd']; subst. inversion Hnz as [|? ? Hv Hnz']; subst.
  cbn [fst snd] in *. rewrite !sget_cons. cbn [fst snd].
  destruct (Nat.eqb_spec c j) as [->|]; [|rewrite !Z.add_0_l; auto].
  assert (Z0 : sget r j = 0%Z).
  { clear -Hc. induction r as [|[c' v'] r IHr]; [reflexivity|].
    rewrite sget_cons. cbn [fst snd]. simpl in Hc. destruct (Nat.eqb_spec c' j); [tauto|]. rewrite IHr; auto. }
  rewrite Z0 in *. rewrite (IH Hnd' Hnz'). simpl. rewrite Z.add_0_r.
  destruct (Z.eqb_spec v 0); [contradiction | reflexivity].
Qed.

(** ** C12: intercept *)

Open Scope Q_scope.

Lemma inj_S n : inject_Z (Z.of_nat (S n)) == 1 + inject_Z (Z.of_nat n).
Proof. rewrite Nat2Z.inj_succ, <- Z.add_1_l, inject_Z_plus. reflexivity. Qed.

Lemma sumQ_cons x l : sumQ (x :: l) = x + sumQ l.
Proof. reflexivity. Qed.

Lemma sumQ_le_all (l : list Q) : Forall (fun x => x <= 1) l ->
  inject_Z (Z.of_nat (length l)) <= sumQ l -> Forall (fun x => x == 1) l.
Proof.
  assert (U : forall l, Forall (fun x => x <= 1) l -> sumQ l <= inject_Z (Z.of_nat (length l))).
  { induction 1 as [|x r Hx _ IH]; [apply Qle_refl|].
    cbn [length]. rewrite sumQ_cons, inj_S. lra. }
  induction 1 as [|x r Hx Hr IH]; intros H; constructor;
    cbn [length] in H; rewrite sumQ_cons, inj_S in H; specialize (U r Hr).
  - apply Qle_antisym; [assumption|]. lra.
  - apply IH. lra.
Qed.

Lemma sumQ_ones (l : list Q) : Forall (fun x => x == 1) l -> sumQ l == inject_Z (Z.of_nat (length l)).
Proof.
  induction 1 as [|x r Hx _ IH]; [reflexivity|].
  cbn [length]. rewrite sumQ_cons, inj_S. lra.
Qed.

Lemma Qlt_bool_false a b : Qlt_bool a b = false <-> b <= a.
Proof. unfold Qlt_bool. rewrite negb_false_iff. apply Qle_bool_iff. Qed.

Lemma inj_pos n : (0 < n)%nat -> 0 < inject_Z (Z.of_nat n).
Proof. intros H. change 0 with (inject_Z 0). rewrite <- Zlt_Qlt. lia. Qed.

Lemma mean_ge1 f c : (0 < length (frows f))%nat ->
  (Qlt_bool (col_mean f c) 1 = false <-> inject_Z (Z.of_nat (length (frows f))) <= col_sum f c).
Proof.
  intros H. rewrite Qlt_bool_false. unfold col_mean. pose proof (inj_pos _ H) as HN.
  set (N := inject_Z _) in *. set (s := col_sum f c). split; intros G.
  - assert (E : N * (s / N) == s) by (field; lra).
    rewrite <- E. rewrite <- (Qmult_1_r N) at 1. apply Qmult_le_l; assumption.
  - apply Qle_shift_div_l; lra.
Qed.

Lemma intercept_stable f : (0 < length (frows f))%nat ->
  (exists c, (c < fcols f)%nat /\ Forall (fun r => nth c r 0 == 1) (frows f)) ->
  forallb (fun c => Qlt_bool (col_mean f c) 1) (seq 0 (fcols f)) = false.
Proof.
  intros HD (c & Hc & HF). apply not_true_is_false. intros H.
  rewrite forallb_forall in H. specialize (H c). rewrite in_seq in H. specialize (H ltac:(lia)).
  assert (Qlt_bool (col_mean f c) 1 = false); [|congruence].
  apply mean_ge1; auto. unfold col_sum. rewrite sumQ_ones.
  - rewrite map_length. apply Qle_refl.
  - apply Forall_map. exact HF.
Qed.
Close Scope Q_scope.

(** ** C13: minimum document frequency *)

Lemma count_filter_sum {A} (p : A -> bool) (l : list A) :
  sumN (map (fun a => if p a then 1 else 0) l) = length (filter p l).
Proof. induction l as [|a l IH]; simpl; auto. destruct (p a); simpl; lia. Qed.

Lemma row_count_at r c : NoDup (map fst r) ->
  length (filter (fun e : nat * Z => (fst e =? c) && negb (snd e =? 0)%Z) r)
  = if (sget r c =? 0)%Z then 0 else 1.
Proof.
  induction r as [|[c' v] r IH]; intros Hnd; [reflexivity|].
  inversion Hnd as [|? ? Hc Hnd']; subst. cbn [fst] in *. simpl. rewrite sget_cons. cbn [fst snd].
  destruct (Nat.eqb_spec c' c) as [->|]; simpl; [|rewrite ?Z.add_0_l; auto].
  assert (Z0 : sget r c = 0%Z).
  { clear -Hc. induction r as [|[c' v'] r IHr]; [reflexivity|].
    rewrite sget_cons. cbn [fst snd]. simpl in Hc. destruct (Nat.eqb_spec c' c); [tauto|]. rewrite IHr; auto. }
  specialize (IH Hnd'). rewrite Z0 in *. simpl in IH. rewrite Z.add_0_r.
  destruct (Z.eqb_spec v 0); simpl; lia.
Qed.

Lemma docs_per_word_spec w c : Forall (fun r => NoDup (map fst r)) (srows w) ->
  docs_per_word w c = length (filter (fun d => negb (mget w d c =? 0)%Z) (seq 0 (nrows w))).
Proof.
  intros H. unfold docs_per_word, nrows, mget.
  assert (G : forall rs pre, Forall (fun r => NoDup (map fst r)) rs ->
    sumN (map (fun r => length (filter (fun e : nat * Z => (fst e =? c) && negb (snd e =? 0)%Z) r)) rs)
    = length (filter (fun d => negb (match nth_error (pre ++ rs) d with Some r => sget r c | None => 0%Z end =? 0)%Z)
                     (seq (length pre) (length rs)))).
  { clear. induction rs as [|r rs IH]; intros pre HF; [reflexivity|]. inversion HF; subst. simpl.
    rewrite row_count_at by assumption. rewrite nth_error_app2, Nat.sub_diag by lia. simpl.
    specialize (IH (pre ++ [r]) ltac:(assumption)). rewrite app_length in IH. simpl in IH.
    rewrite Nat.add_1_r in IH.
    replace ((pre ++ [r]) ++ rs) with (pre ++ r :: rs) in IH by (rewrite <- app_assoc; reflexivity).
    rewrite IH. destruct (sget r c =? 0)%Z; simpl; reflexivity. }
  exact (G (srows w) [] H).
Qed.

Lemma where_from_map_seq (p : nat -> bool) (f : nat -> nat) n : forall k,
  where_from (fun v => p v) k (map f (seq k n)) = filter (fun c => p (f c)) (seq k n).
Proof.
  induction n as [|n IH]; intros k; simpl; [reflexivity|].
  destruct (p (f k)); rewrite IH; reflexivity.
Qed.

Lemma retained_filter w n : retained_words w n = filter (fun c => n <=? docs_per_word w c) (seq 0 (scols w)).
Proof. unfold retained_words, where_. apply (where_from_map_seq (fun v => n <=? v)). Qed.
