(** * The link evaluations: what they report and what they train on (C138-C140). *)
From Coq Require Import List ZArith QArith Qabs Arith Bool Permutation Lia Lqa.
From Verif Require Import Base SparseModel DatasetModel DatasetSpec SplitProofs PruneProofs DatasetProofs DatasetProps PartModel PartProps EvalModel EvalSpec
  EvalProofs EvalGroups EvalProps RunModel RunProps LroModel.
Import ListNotations.
Open Scope nat_scope.

(** ** Lemmas *)
Lemma foldM_app {A S} (f : S -> A -> res S) : forall l s r, foldM f s (l ++ r) = (do s' <- foldM f s l; foldM f s' r).
Proof.
  induction l as [|a l IH]; intros s r; cbn [foldM app]; [reflexivity|].
  destruct (f s a) as [s'|e]; cbn [bind]; [apply IH|reflexivity].
Qed.

Lemma sum_res_app {A} (f : A -> res Q) : forall l r x y, sum_res f l = Ok x -> sum_res f r = Ok y ->
  exists z, sum_res f (l ++ r) = Ok z /\ (z == x + y)%Q.
Proof.
  induction l as [|a l IH]; intros r x y Hx Hy; cbn [sum_res app] in *.
  - injection Hx as <-. exists y. split; [exact Hy|]. ring.
  - apply bind_ok in Hx as (v & Hv & Hx). apply bind_ok in Hx as (s & Hs & [= <-]).
    destruct (IH r s y Hs Hy) as (z & Hz & E). rewrite Hv. cbn [bind]. rewrite Hz. cbn [bind].
    exists (v + z)%Q. split; [reflexivity|]. rewrite E. ring.
Qed.

Lemma combine_map_counts oa oc na nc ua uc :
  combine_map (Some (oa, oc)) (na, nc) = Ok (ua, uc) -> combine_counts oc nc = Ok uc.
Proof.
  unfold combine_map. intros H. apply bind_ok in H as (u & Hu & H). apply bind_ok in H as (v & Hv & [= -> ->]). exact Hu.
Qed.

Lemma combine_folds_snoc rs r : combine_folds (rs ++ [r]) =
  (do o <- combine_folds rs; do x <- combine_map o r; Ok (Some x)).
Proof.
  unfold combine_folds. rewrite foldM_app. destruct (foldM _ None rs) as [o|e]; cbn [bind foldM]; [|reflexivity].
  destruct (combine_map o r); reflexivity.
Qed.

Lemma qn_qnat n : qn n = qnat n. Proof. reflexivity. Qed.

Definition precisions (t : dict tally) : avgs * counts := (prec_table t, count_table t).

(** ** What has been added up after some rounds *)
Definition added (argsort : list Q -> list nat) (parts : list (list doc)) (st : option sums) : Prop :=
  match st with
  | None => parts = []
  | Some s =>
    exists ts, Forall2 (fun docs t => mean_prec_rec_at argsort (Some lro_ms) (Some lro_groups) docs = Ok t) parts ts /\
      combine_folds (map precisions ts) = Ok (Some (s_precs s, s_counts s)) /\
      combine_folds (map recalls ts) = Ok (Some (s_recs s, s_counts s)) /\
      parts <> [] /\ 0 < length (concat parts) /\
      map_docs s = length (concat parts) /\ mrr_docs s = length (concat parts) /\
      (exists x, sum_res (average_prec argsort) (concat parts) = Ok x /\ (map_sum s == x)%Q) /\
      exists ms, Forall2 (fun docs m => mean_reciprocal_rank argsort docs = Ok m) parts ms /\
        (mrr_sum s == qsum (fun '(docs, m) => m * qnat (length docs)) (combine parts ms))%Q
  end.

Lemma added_step argsort parts st docs s : added argsort parts st -> lro_scores argsort docs st = Ok s ->
  added argsort (parts ++ [docs]) (Some s).
Proof.
  intros HA H. unfold lro_scores in H.
  apply bind_ok in H as (t & Ht & H). apply bind_ok in H as ([pa pc] & Hp & H). apply bind_ok in H as ([ra rc] & Hr & H).
  apply bind_ok in H as (mrr & Hmrr & H). apply bind_ok in H as (mp & Hmap & [= <-]).
  assert (HM : 0 < length docs /\ exists x, sum_res (average_prec argsort) docs = Ok x /\ (mp * qnat (length docs) == x)%Q).
  { unfold mean_average_prec in Hmap. apply bind_ok in Hmap as (x & Hx & E). destruct (Nat.eqb_spec (length docs) 0); [discriminate|].
    injection E as <-. split; [lia|]. exists x. split; [exact Hx|]. unfold qnat.
    assert (0 < qnat (length docs))%Q by (apply qnat_pos; lia). unfold qnat in *. field. lra. }
  destruct HM as (HL & x & Hx & Ex).
  unfold added. cbn [s_precs s_recs s_counts map_docs mrr_docs map_sum mrr_sum fst snd].
  destruct st as [s0|]; cbn [added] in HA.
  - destruct HA as (ts & F & P & R & Hne & Hpos & D1 & D2 & (y & Hy & Ey) & ms & Fm & Em).
    exists (ts ++ [t]). cbn [old_sum old_docs option_map] in *.
    assert (rc = pc) as -> by (pose proof (combine_map_counts _ _ _ _ _ _ Hp); pose proof (combine_map_counts _ _ _ _ _ _ Hr); congruence).
    split; [apply Forall2_app; [exact F|constructor; [exact Ht|constructor]]|].
    split; [rewrite map_app; cbn [map]; rewrite combine_folds_snoc, P; cbn [bind]; change (precisions t) with (prec_table t, count_table t); rewrite Hp; reflexivity|].
    split; [rewrite map_app; cbn [map]; rewrite combine_folds_snoc, R; cbn [bind]; change (recalls t) with (rec_table t, count_table t); rewrite Hr; reflexivity|].
    split; [destruct parts; discriminate|].
    rewrite concat_app, app_length. cbn [concat]. rewrite app_nil_r.
    split; [lia|]. split; [lia|]. split; [lia|]. split.
    + destruct (sum_res_app _ _ _ _ _ Hy Hx) as (z & Hz & Ez). exists z. split; [exact Hz|].
      rewrite qn_qnat, Ez, Ey, Ex. reflexivity.
    + exists (ms ++ [mrr]). split; [apply Forall2_app; [exact Fm|constructor; [exact Hmrr|constructor]]|].
      assert (EC : combine (parts ++ [docs]) (ms ++ [mrr]) = combine parts ms ++ [(docs, mrr)]).
      { clear - Fm. induction Fm as [|a b l l' _ F IH]; [reflexivity|]. cbn. rewrite IH. reflexivity. }
      rewrite EC, qsum_app, qsum_cons, qsum_nil, Em, qn_qnat. ring.
  - subst parts. exists [t]. cbn [old_sum old_docs option_map combine_map] in *.
    injection Hp as <- <-. injection Hr as <- <-.
    split; [constructor; [exact Ht|constructor]|].
    split; [reflexivity|]. split; [reflexivity|]. cbn [app concat]. rewrite app_nil_r.
    split; [discriminate|]. split; [exact HL|]. split; [reflexivity|]. split; [reflexivity|]. split.
    + exists x. split; [exact Hx|]. rewrite qn_qnat, Ex. ring.
    + exists [mrr]. split; [constructor; [exact Hmrr|constructor]|]. cbn [combine]. rewrite qsum_cons, qsum_nil, qn_qnat. ring.
Qed.

(** The reported mean is that of all documents together. *)
Lemma added_map argsort parts s : added argsort parts (Some s) ->
  exists x y, final_map s = Ok x /\ mean_average_prec argsort (concat parts) = Ok y /\ (x == y)%Q.
Proof.
  intros (ts & _ & _ & _ & _ & Hpos & D1 & _ & (x & Hx & Ex) & _). unfold final_map, mean_average_prec.
  rewrite D1, Hx. cbn [bind]. destruct (Nat.eqb_spec (length (concat parts)) 0); [lia|].
  eexists _, _. split; [reflexivity|]. split; [reflexivity|]. rewrite Ex. reflexivity.
Qed.

Lemma added_mrr argsort parts s : added argsort parts (Some s) ->
  exists x ms, final_mrr s = Ok x /\ Forall2 (fun docs m => mean_reciprocal_rank argsort docs = Ok m) parts ms /\
    (x == qsum (fun '(docs, m) => m * qnat (length docs)) (combine parts ms) / qnat (length (concat parts)))%Q.
Proof.
  intros (ts & _ & _ & _ & _ & Hpos & _ & D2 & _ & ms & F & E). unfold final_mrr.
  rewrite D2. destruct (Nat.eqb_spec (length (concat parts)) 0); [lia|].
  eexists _, ms. split; [reflexivity|]. split; [exact F|]. rewrite E. reflexivity.
Qed.

(** Precision tables, as C29_parts_combine_to_whole for recalls. *)
Definition prec_of (t : dict tally) (i : nat) (g : group) : Q :=
  match lookup g t with Some x => nth i (tprec x) 0%Q | None => 0%Q end.

Lemma prec_parts_combine : forall argsort at_ groups (parts : list (list doc)) ts whole r,
  parts <> [] ->
  Forall2 (fun docs t => mean_prec_rec_at argsort at_ groups docs = Ok t) parts ts ->
  mean_prec_rec_at argsort at_ groups (concat parts) = Ok whole ->
  combine_folds (map precisions ts) = Ok (Some r) ->
  forall g i, In g (all_groups groups) -> i < length (ms_of at_) -> 0 < count_of whole g ->
    cnt g r = count_of whole g /\ (avg g i r == prec_of whole i g)%Q.
Proof.
  intros argsort at_ groups parts ts whole r Hne HF HW HR g i Hg Hi Hpos.
  set (gs := all_groups groups) in *. set (L := length (ms_of at_)) in *.
  assert (Hts : ts <> []) by (inversion HF; subst; congruence).
  assert (HL : forall t, prec_of t i g = avg g i (precisions t) /\ count_of t g = cnt g (precisions t)).
  { intros t. unfold prec_of, count_of, avg, cnt, precisions, prec_table, count_table. cbn [fst snd].
    rewrite (lookup_map (fun _ => tprec)), (lookup_map (fun _ => tcount)). destruct (lookup g t); split; reflexivity. }
  assert (HS : Forall (shaped (keys gs) L) (map precisions ts)).
  { clear - HF. induction HF as [|d t ds ts E HF IH]; [constructor|]. cbn. constructor; [|exact IH].
    apply result_spec in E as [K R]. unfold shaped, precisions, prec_table, count_table. cbn [fst snd]. rewrite !map_map.
    assert (forall A (f : tally -> A), map (fun x => fst (let '(g, y) := x in (g, f y))) t = map fst t) as X.
    { intros A f. apply map_ext. intros [a b]. reflexivity. }
    split; [rewrite (X _ tprec); exact K|]. split; [rewrite (X _ tcount); exact K|].
    intros g l. rewrite (lookup_map (fun _ => tprec)). destruct (lookup g t) as [x|] eqn:E; [|discriminate].
    cbn. intros [= <-]. assert (Hg : In g gs) by (apply keys_In; unfold gs; rewrite <- K; apply lookup_key; eauto).
    destruct (R g Hg) as (x' & Hx' & _ & L1 & _ & _). assert (x' = x) as -> by congruence. exact L1. }
  assert (exists m, nth_error (ms_of at_) i = Some m) as (m & Hm).
  { destruct (nth_error (ms_of at_) i) eqn:E; [eauto|]. apply nth_error_None in E. unfold L in Hi. lia. }
  assert (HT : forall docs t, mean_prec_rec_at argsort at_ groups docs = Ok t ->
     count_of t g = length (filter (memberb gs g) docs) /\
     (prec_of t i g * qnat (count_of t g) == qsum (doc_prec argsort m) (filter (memberb gs g) docs))%Q).
  { intros docs t E. apply result_spec in E as [K R]. destruct (R g Hg) as (x & Hx & C & _ & _ & V).
    unfold count_of, prec_of. rewrite Hx. cbv zeta in *. split; [exact C|].
    destruct (V i m Hm) as [P _]. rewrite P, C. fold gs. set (sel := filter _ docs). destruct sel as [|d l] eqn:E.
    - rewrite qsum_nil. cbn [length]. rewrite qnat_0. ring.
    - rewrite Nat.max_r by (cbn; lia). assert (0 < qnat (length (d :: l)))%Q by (apply qnat_pos; cbn; lia). field. lra. }
  assert (HSum : total g (map precisions ts) = length (filter (memberb gs g) (concat parts)) /\
    (qsum (fun x => avg g i x * qnat (cnt g x)) (map precisions ts) == qsum (doc_prec argsort m) (filter (memberb gs g) (concat parts)))%Q).
  { clear - HF HT HL. induction HF as [|d t ds ts E HF [IH1 IH2]]; [split; reflexivity|].
    destruct (HT d t E) as [T1 T2]. destruct (HL t) as [L1 L2]. cbn [map concat]. rewrite filter_app, app_length, qsum_app, qsum_cons.
    split.
    - unfold total in *. cbn [map]. unfold sumN in *. cbn [fold_right]. rewrite IH1, <- L2, T1. reflexivity.
    - rewrite IH2, <- L1, <- L2, T2. reflexivity. }
  destruct HSum as [S1 S2]. destruct (HT _ _ HW) as [W1 W2].
  destruct (C29_combined_is_weighted_mean (keys gs) L (map precisions ts) r (keys_NoDup gs)) with (g := g) as [C V]; auto.
  - destruct ts; [congruence|discriminate].
  - apply keys_In. exact Hg.
  - split; [congruence|]. rewrite (V i Hi) by (rewrite S1, <- W1; exact Hpos). rewrite S2, <- W2, S1, <- W1.
    assert (0 < qnat (count_of whole g))%Q by (apply qnat_pos; exact Hpos). field. lra.
Qed.

Lemma whole_exists argsort at_ groups (parts : list (list doc)) ts : sorts argsort ->
  Forall2 (fun docs t => mean_prec_rec_at argsort at_ groups docs = Ok t) parts ts ->
  exists whole, mean_prec_rec_at argsort at_ groups (concat parts) = Ok whole.
Proof.
  intros Hs HF. apply returns_iff; [exact Hs|]. intros d Hd Hne. apply in_concat in Hd as (docs & Hp & Hd).
  clear -Hs HF Hd Hp Hne. induction HF as [|a t l ts E HF IH]; [destruct Hp|]. destruct Hp as [->|Hp]; [|auto].
  exact (proj1 (returns_iff argsort at_ groups docs Hs) (ex_intro _ _ E) d Hd Hne).
Qed.

(** The tables printed at the end are those of all documents together. *)
Definition pooled_tables (argsort : list Q -> list nat) (docs : list doc) (s : sums) : Prop :=
  exists whole, mean_prec_rec_at argsort (Some lro_ms) (Some lro_groups) docs = Ok whole /\
    forall g, In g (all_groups (Some lro_groups)) -> 0 < count_of whole g ->
      cnt g (s_precs s, s_counts s) = count_of whole g /\
      forall i, i < length lro_ms ->
        (avg g i (s_precs s, s_counts s) == prec_of whole i g)%Q /\
        (avg g i (s_recs s, s_counts s) == recall_of whole i g)%Q.

Lemma added_tables argsort parts s : sorts argsort -> added argsort parts (Some s) -> pooled_tables argsort (concat parts) s.
Proof.
  intros Hs (ts & F & P & R & Hne & _).
  destruct (whole_exists _ _ _ _ _ Hs F) as (whole & W). exists whole. split; [exact W|].
  intros g Hg Hpos. split; [apply (prec_parts_combine _ _ _ _ _ _ _ Hne F W P g 0 Hg); [cbn; lia|exact Hpos]|].
  intros i Hi. split.
  - apply (prec_parts_combine _ _ _ _ _ _ _ Hne F W P g i Hg Hi Hpos).
  - apply (C29_parts_combine_to_whole _ _ _ _ _ _ _ Hne F W R g i Hg Hi Hpos).
Qed.

(** ** In-sample evaluation *)
Lemma insample_added argsort (eval : nat -> res (list doc)) save : forall fs parts st files st' files',
  added argsort parts st ->
  foldM (one_fold (fun st f => do docs <- eval f; lro_scores argsort docs st) save) (st, files) fs = Ok (st', files') ->
  exists more, mapM eval fs = Ok more /\ added argsort (parts ++ more) st'.
Proof.
  induction fs as [|f fs IH]; intros parts st files st' files' HA H; cbn [foldM] in H.
  - injection H as <- <-. exists []. rewrite app_nil_r. split; [reflexivity|exact HA].
  - apply bind_ok in H as ([st1 files1] & H1 & H). unfold one_fold in H1. cbn [fst snd] in H1.
    apply bind_ok in H1 as (s & Hs & H1). apply bind_ok in Hs as (docs & Hd & Hs).
    apply bind_ok in H1 as (n & _ & [= <- <-]).
    pose proof (added_step _ _ _ _ _ HA Hs) as HA'. destruct (IH _ _ _ _ _ HA' H) as (more & Hm & HA2).
    exists (docs :: more). cbn [mapM]. rewrite Hd. cbn [bind]. rewrite Hm. cbn [bind]. split; [reflexivity|].
    rewrite <- app_assoc in HA2. exact HA2.
Qed.

Definition insample_folds (folds : Z) (target : option Z) : nat :=
  match target with
  | Some t => if (1 <=? t)%Z then Nat.min (Z.to_nat t) (Z.to_nat folds) else Z.to_nat folds
  | None => Z.to_nat folds
  end.

Lemma insample_run argsort folds target eval save s files :
  insample argsort folds target eval save = Ok (s, files) ->
  exists parts, mapM eval (seq 0 (insample_folds folds target)) = Ok parts /\ added argsort parts (Some s).
Proof.
  intros H. unfold insample in H. assert (Hf : (1 < folds)%Z).
  { unfold cv_insample in H. destruct (Z.leb_spec folds 1); [discriminate|lia]. }
  rewrite C100_insample_runs_requested_folds in H by exact Hf. unfold report, folds_in_order in H.
  apply bind_ok in H as ([st fs'] & H & E). destruct st as [s'|]; [|discriminate]. injection E as -> ->.
  destruct (insample_added argsort eval save _ [] None [] (Some s) files eq_refl H) as (parts & Hp & HA). eauto.
Qed.

(** The mean average precision printed at the end is that of the documents of all folds together. *)
Theorem C138_final_map_is_over_all_documents : forall argsort folds target eval save s files,
  insample argsort folds target eval save = Ok (s, files) ->
  exists parts x y, mapM eval (seq 0 (insample_folds folds target)) = Ok parts /\
    final_map s = Ok x /\ mean_average_prec argsort (concat parts) = Ok y /\ (x == y)%Q.
Proof.
  intros argsort folds target eval save s files H. destruct (insample_run _ _ _ _ _ _ _ H) as (parts & Hp & HA).
  destruct (added_map _ _ _ HA) as (x & y & Hx & Hy & E). exists parts, x, y. auto.
Qed.

(** So are the tables of precision and recall, for every group that has documents. *)
Theorem C138_final_tables_are_over_all_documents : forall argsort folds target eval save s files,
  sorts argsort ->
  insample argsort folds target eval save = Ok (s, files) ->
  exists parts, mapM eval (seq 0 (insample_folds folds target)) = Ok parts /\ pooled_tables argsort (concat parts) s.
Proof.
  intros argsort folds target eval save s files Hs H. destruct (insample_run _ _ _ _ _ _ _ H) as (parts & Hp & HA).
  exists parts. split; [exact Hp|]. apply added_tables; assumption.
Qed.

(** The mean reciprocal rank is a mean over retrieved links, but the folds are weighted by documents. *)
Theorem C138_final_mrr_weighs_by_documents : forall argsort folds target eval save s files,
  insample argsort folds target eval save = Ok (s, files) ->
  exists parts ms x, mapM eval (seq 0 (insample_folds folds target)) = Ok parts /\
    Forall2 (fun docs m => mean_reciprocal_rank argsort docs = Ok m) parts ms /\ final_mrr s = Ok x /\
    (x == qsum (fun '(docs, m) => m * qnat (length docs)) (combine parts ms) / qnat (length (concat parts)))%Q.
Proof.
  intros argsort folds target eval save s files H. destruct (insample_run _ _ _ _ _ _ _ H) as (parts & Hp & HA).
  destruct (added_mrr _ _ _ HA) as (x & ms & Hx & F & E). exists parts, ms, x. auto.
Qed.

(** One document per group of sizes, so that the tables can be combined. *)
Definition big_doc (n : nat) (score : nat -> Q) : doc := (seq 0 n, map (fun i => (i, score i)) (seq 0 n)).
Definition group_docs (top : nat -> Q) : list doc :=
  [big_doc 2 top; big_doc 4 top; big_doc 6 top; big_doc 11 top].

Definition qdoc (n : nat) : doc := ([0], map (fun i => (i, qn i)) (seq 0 n)).
(** Two folds that share four documents, one in each group of sizes.  The first has two more, whose
    only link is ranked first; the second has one more, whose only link is ranked fourth. *)
Definition fold_a : list doc := group_docs (fun i => qn (100 - i)) ++ [qdoc 1; qdoc 1].
Definition fold_b : list doc := group_docs (fun i => qn (100 - i)) ++ [qdoc 4].

Theorem C138_final_mrr_is_over_all_links_refuted : exists eval s files x y,
  insample isort 2 None eval None = Ok (s, files) /\ final_mrr s = Ok x /\
  mean_reciprocal_rank isort (concat [fold_a; fold_b]) = Ok y /\ mapM eval [0; 1] = Ok [fold_a; fold_b] /\ ~ (x == y)%Q.
Proof.
  exists (fun f => Ok (if f =? 0 then fold_a else fold_b)). eexists _, _, _, _.
  split; [vm_compute; reflexivity|]. split; [vm_compute; reflexivity|]. split; [vm_compute; reflexivity|].
  split; [reflexivity|]. vm_compute. intros E. discriminate E.
Qed.

(** An evaluation stops without a result when some group of sizes has no document in either of the first
    two folds. *)
Theorem C138_groups_without_documents_raise : forall argsort folds target eval save docs0 docs1 t0 t1 g,
  sorts argsort -> (1 < folds)%Z -> 2 <= insample_folds folds target ->
  eval 0 = Ok docs0 -> eval 1 = Ok docs1 ->
  mean_prec_rec_at argsort (Some lro_ms) (Some lro_groups) docs0 = Ok t0 ->
  mean_prec_rec_at argsort (Some lro_ms) (Some lro_groups) docs1 = Ok t1 ->
  In g lro_groups -> count_of t0 g = 0 -> count_of t1 g = 0 ->
  forall r, insample argsort folds target eval save <> Ok r.
Proof.
  intros argsort folds target eval save docs0 docs1 t0 t1 g Hs Hf Hn E0 E1 T0 T1 Hg C0 C1 [s files] H.
  destruct (insample_run _ _ _ _ _ _ _ H) as (parts & Hp & ts & F & P & _).
  destruct (insample_folds folds target) as [|[|n]] eqn:En; [lia|lia|].
  cbn [seq mapM] in Hp. rewrite E0, E1 in Hp. cbn [bind] in Hp.
  apply bind_ok in Hp as (l & Hl & Hp). apply bind_ok in Hl as (l' & Hl' & [= <-]). injection Hp as <-.
  inversion F as [|? a ? ts1 Ea F1]; subst. inversion F1 as [|? b ? ts2 Eb F2]; subst.
  assert (a = t0) as -> by congruence. assert (b = t1) as -> by congruence.
  assert (HS : Forall (shaped (keys (all_groups (Some lro_groups))) (length lro_ms)) (map precisions (t0 :: t1 :: ts2))).
  { clear - F. induction F as [|d t ds ts E HF IH]; [constructor|]. cbn [map]. constructor; [|exact IH].
    apply result_spec in E as [K R]. unfold shaped, precisions, prec_table, count_table. cbn [fst snd]. rewrite !map_map.
    assert (forall A (f : tally -> A), map (fun x => fst (let '(g, y) := x in (g, f y))) t = map fst t) as X.
    { intros A f. apply map_ext. intros [a b]. reflexivity. }
    split; [rewrite (X _ tprec); exact K|]. split; [rewrite (X _ tcount); exact K|].
    intros g l. rewrite (lookup_map (fun _ => tprec)). destruct (lookup g t) as [x|] eqn:E; [|discriminate].
    cbn [option_map]. intros [= <-].
    assert (Hg : In g (all_groups (Some lro_groups))) by (apply keys_In; rewrite <- K; apply lookup_key; eauto).
    destruct (R g Hg) as (x' & Hx' & _ & L1 & _ & _). assert (x' = x) as -> by congruence. exact L1. }
  assert (HI : In g (keys (all_groups (Some lro_groups)))).
  { apply keys_In. unfold all_groups. destruct (existsb _ _); [exact Hg|apply in_or_app; left; exact Hg]. }
  pose proof (proj1 (C29_fails_iff_first_two_empty _ _ _ _ _ (keys_NoDup _) (Nat.lt_0_succ 9) HS) (ex_intro _ _ P) g HI) as Hpos.
  assert (HC : forall t, cnt g (precisions t) = count_of t g).
  { intros t. unfold cnt, count_of, precisions, count_table. cbn [snd]. rewrite (lookup_map (fun _ => tcount)).
    destruct (lookup g t); reflexivity. }
  rewrite !HC in Hpos. lia.
Qed.

(** For instance, with no document that has ten or more hidden links. *)
Theorem C138_evaluation_finishes_refuted : exists docs,
  (forall d, In d docs -> NoDup (fst d) /\ incl (fst d) (map fst (snd d))) /\ length docs = 3 /\
  insample isort 2 None (fun _ => Ok docs) None = Raise ZeroDivisionError.
Proof.
  exists [big_doc 2 (fun i => qn (9 - i)); big_doc 4 (fun i => qn (9 - i)); big_doc 6 (fun i => qn (9 - i))].
  split; [|split; [reflexivity|vm_compute; reflexivity]].
  intros d Hd. assert (H : exists n f, d = big_doc n f) by (cbn in Hd; intuition (subst; eauto)).
  destruct H as (n & f & ->). unfold big_doc. cbn [fst snd]. rewrite map_map. cbn [fst]. rewrite map_id.
  split; [apply seq_NoDup|apply incl_refl].
Qed.

Example C138_example : exists s files x,
  insample isort 3 (Some 2%Z) (fun f => Ok (if f =? 0 then fold_a else fold_b)) (Some (fun f => Ok (7 + f))) = Ok (s, files) /\
  files = [7; 8] /\ final_map s = Ok x /\ Qred x = (41 # 44)%Q.
Proof. eexists _, _, _. repeat (split; [vm_compute; reflexivity|]). vm_compute. reflexivity. Qed.

(** ** C139: evaluation on documents with unseen features *)

(** One round for the features [fs]: [ix] are the documents trained on, [qx] those queried. *)
Definition round_of {T M} (ds : dataset) (f : fmat) (uses_lda : bool) (lda : option (lda_kind * M) * list T)
    (eval : dataset -> dataset -> option (M * list T) -> res (list doc)) (fs : list nat) (r : list nat * list nat * list doc) : Prop :=
  let '(ix, qx, docs) := r in
  exists c rest tr qu sub, fs = c :: rest /\ eval tr qu sub = Ok docs /\
    NoDup ix /\ (forall d, In d ix <-> d < length (frows f) /\ forall c', In c' fs -> (fval f d c' == 0)%Q) /\
    NoDup qx /\ (forall d, In d qx <-> d < length (frows f) /\ (0 < fval f d c)%Q) /\
    rows_from eq ix (srows (words ds)) (srows (words tr)) /\ rows_from eq qx (srows (words ds)) (srows (words qu)) /\
    rows_from eq ix (order ds) (order tr) /\ rows_from eq qx (order ds) (order qu) /\
    (exists ft fq, feats tr = Some ft /\ feats qu = Some fq /\
       rows_from eq ix (frows f) (frows ft) /\ rows_from eq qx (frows f) (frows fq)) /\
    links_from ds ix ix tr /\ links_from ds qx ix qu /\
    (if uses_lda then exists m rows, sub = Some (m, rows) /\ rows_from eq ix (snd lda) rows else sub = None).

(** The rounds for a mask drop its features one after the other. *)
Fixpoint rounds_of {T M} ds f uses_lda (lda : option (lda_kind * M) * list T) eval (mask : list nat)
    (rs : list (list nat * list nat * list doc)) : Prop :=
  match mask, rs with
  | [], [] => True
  | _ :: rest, r :: rs => round_of ds f uses_lda lda eval mask r /\ rounds_of ds f uses_lda lda eval rest rs
  | _, _ => False
  end.

(** Features are absent or above the threshold. *)
Definition on_off (f : fmat) (mask : list nat) : Prop :=
  forall d c, d < length (frows f) -> In c mask -> (fval f d c == 0 \/ epsilon30 < fval f d c)%Q.

Lemma eps_pos : (0 < epsilon30)%Q. Proof. reflexivity. Qed.

Lemma sum_on_off : forall (v : nat -> Q) fs, (forall c, In c fs -> (v c == 0 \/ epsilon30 < v c)%Q) ->
  (0 <= DatasetModel.sumQ (map v fs))%Q /\ ((DatasetModel.sumQ (map v fs) < epsilon30)%Q <-> forall c, In c fs -> (v c == 0)%Q).
Proof.
  pose proof eps_pos as Hp. intros v. induction fs as [|c fs IH]; intros H.
  - split; [apply Qle_refl|]. split; [intros _ c []|intros _; exact Hp].
  - destruct IH as [IH1 IH2]; [intros c' Hc'; apply H; right; exact Hc'|].
    change (DatasetModel.sumQ (map v (c :: fs))) with (v c + DatasetModel.sumQ (map v fs))%Q.
    destruct (H c (or_introl eq_refl)) as [E|E].
    + split; [rewrite E; lra|]. split.
      * intros L c' [<-|Hc']; [exact E|]. apply IH2; [|exact Hc']. rewrite E in L. lra.
      * intros A. rewrite E, Qplus_0_l. apply IH2. intros c' Hc'. apply A. right. exact Hc'.
    + split; [lra|]. split; [intros L; exfalso; lra|]. intros A. specialize (A c (or_introl eq_refl)). lra.
Qed.

Lemma one_round {T M} (ds : dataset) (f : fmat) (uses_lda : bool) (lda : option (lda_kind * M) * list T) (eval : dataset -> dataset -> option (M * list T) -> res (list doc)) fs tr qu ix sub docs :
  feats ds = Some f -> on_off f fs -> split_on_feature ds fs = Ok (tr, qu, ix) ->
  (if uses_lda then do s <- subset_lda lda ix; Ok (Some s) else Ok None) = Ok sub ->
  eval tr qu sub = Ok docs -> exists qx, round_of ds f uses_lda lda eval fs (ix, qx, docs).
Proof.
  intros Hf Ho H Hs He.
  destruct (C20_returned_documents ds f fs tr qu ix Hf H)
    as (c0 & rest & qx & -> & Hd & Hq & N1 & N2 & R1 & R2 & R3 & R4 & R5 & _ & L1 & L2 & _).
  exists qx, c0, rest, tr, qu, sub. split; [reflexivity|]. split; [exact He|]. split; [exact N1|]. split.
  { intros d. rewrite Hd. assert (d < length (frows f) -> ((Qabs (DatasetModel.sumQ (map (fval f d) (c0 :: rest))) < epsilon30)%Q <->
      forall c', In c' (c0 :: rest) -> (fval f d c' == 0)%Q)).
    { intros Hl. destruct (sum_on_off (fval f d) (c0 :: rest)) as [A B]; [intros c Hc; apply Ho; assumption|].
      rewrite (Qabs_pos _ A). exact B. }
    tauto. }
  split; [exact N2|]. split.
  { intros d. rewrite Hq. pose proof eps_pos as Hp. split; intros [Hl Hv]; (split; [exact Hl|]); [lra|].
    destruct (Ho d c0 Hl (or_introl eq_refl)) as [E|E]; [lra|exact E]. }
  do 7 (split; [assumption|]).
  destruct uses_lda; [|congruence].
  apply bind_ok in Hs as ([m rows] & Hs & [= <-]). exists m, rows. split; [reflexivity|].
  unfold subset_lda in Hs. destruct (fst lda) as [[[] m']|]; try discriminate;
    apply bind_ok in Hs as (rw & Hr & [= -> ->]); apply select_rows_from in Hr; exact Hr.
Qed.

Lemma on_off_tail f c fs : on_off f (c :: fs) -> on_off f fs.
Proof. intros H d c' Hd Hc. apply H; [exact Hd|right; exact Hc]. Qed.

Lemma outsample_added {T M} argsort ds f uses_lda (lda : option (lda_kind * M) * list T) eval save :
  feats ds = Some f -> forall mask parts st files st' files', on_off f mask -> added argsort parts st ->
  outsample_loop argsort ds uses_lda lda eval save mask st files = Ok (st', files') ->
  exists rs, rounds_of ds f uses_lda lda eval mask rs /\ added argsort (parts ++ map snd rs) st'.
Proof.
  intros Hf. induction mask as [|c rest IH]; intros parts st files st' files' Ho HA H; cbn [outsample_loop] in H.
  - injection H as <- <-. exists []. cbn [map]. rewrite app_nil_r. split; [exact Logic.I|exact HA].
  - apply bind_ok in H as ([[tr qu] ix] & Hsp & H). apply bind_ok in H as (sub & Hsub & H).
    apply bind_ok in H as (docs & He & H). apply bind_ok in H as (s & Hs & H). apply bind_ok in H as (fs' & _ & H).
    destruct (one_round ds f uses_lda lda eval (c :: rest) tr qu ix sub docs Hf Ho Hsp Hsub He) as (qx & HR).
    destruct (IH _ _ _ _ _ (on_off_tail _ _ _ Ho) (added_step _ _ _ _ _ HA Hs) H) as (rs & HRs & HA').
    exists ((ix, qx, docs) :: rs). split; [split; assumption|].
    cbn [map snd]. rewrite <- app_assoc in HA'. exact HA'.
Qed.

(** Each round trains on the documents that have none of the remaining features and asks for the links
    of those that have the next one to the documents trained on; the final mean average precision
    and tables are over the queried documents of all rounds. *)
Theorem C139_rounds : forall T M argsort ds f uses_lda (lda : option (lda_kind * M) * list T) eval save mask s files,
  sorts argsort -> feats ds = Some f -> on_off f mask ->
  outsample argsort ds uses_lda lda eval save mask = Ok (s, files) ->
  exists rs, rounds_of ds f uses_lda lda eval mask rs /\ pooled_tables argsort (concat (map snd rs)) s /\
    exists x y, final_map s = Ok x /\ mean_average_prec argsort (concat (map snd rs)) = Ok y /\ (x == y)%Q.
Proof.
  intros T M argsort ds f uses_lda lda eval save mask s files Hs Hf Ho H. unfold outsample, report in H.
  apply bind_ok in H as ([st fs'] & H & E). destruct st as [s'|]; [|discriminate]. injection E as -> ->.
  destruct (outsample_added argsort ds f uses_lda lda eval save Hf mask [] None [] (Some s) files Ho eq_refl H) as (rs & HR & HA).
  cbn [app] in HA. exists rs. split; [exact HR|]. split; [apply added_tables; assumption|].
  apply added_map in HA. exact HA.
Qed.

Lemma rounds_nth {T M} ds f uses_lda (lda : option (lda_kind * M) * list T) eval : forall mask rs i r,
  rounds_of ds f uses_lda lda eval mask rs -> nth_error rs i = Some r -> round_of ds f uses_lda lda eval (skipn i mask) r.
Proof.
  induction mask as [|c mask IH]; intros [|r0 rs] i r H Hi; cbn [rounds_of] in H; try contradiction.
  - destruct i; discriminate.
  - destruct H as [H1 H2]. destruct i as [|i]; cbn [skipn nth_error] in *; [congruence|]. eapply IH; eauto.
Qed.

Lemma skipn_In_le {A} : forall (l : list A) i j x, i <= j -> In x (skipn j l) -> In x (skipn i l).
Proof.
  intros l i j. revert l i. induction j as [|j IH]; intros l i x Hij H.
  - replace i with 0 by lia. exact H.
  - destruct (Nat.eq_dec i (S j)) as [->|]; [exact H|]. apply IH; [lia|].
    clear -H. revert j H. induction l as [|a l IH]; intros j H; [destruct H|].
    destruct j as [|j]; cbn [skipn] in *; [right; exact H|]. apply IH. exact H.
Qed.

(** No document is asked about in a round after having been trained on in it or in an earlier one, and
    the documents trained on only become more. *)
Theorem C139_queried_documents_are_unseen : forall T M ds f uses_lda (lda : option (lda_kind * M) * list T) eval mask rs i j ri rj,
  rounds_of ds f uses_lda lda eval mask rs -> i <= j -> nth_error rs i = Some ri -> nth_error rs j = Some rj ->
  (forall d, In d (fst (fst ri)) -> ~ In d (snd (fst rj))) /\ incl (fst (fst ri)) (fst (fst rj)).
Proof.
  intros T M ds f uses_lda lda eval mask rs i j [[ixi qxi] di] [[ixj qxj] dj] H Hij Hi Hj.
  pose proof (rounds_nth _ _ _ _ _ _ _ _ _ H Hi) as (ci & resti & tri & qui & subi & Ei & _ & _ & Ti & _).
  pose proof (rounds_nth _ _ _ _ _ _ _ _ _ H Hj) as (cj & restj & trj & quj & subj & Ej & _ & _ & Tj & _ & Qj & _).
  cbn [fst snd]. split.
  - intros d Hd Hq. apply Ti in Hd as [_ Hd]. apply Qj in Hq as [_ Hq].
    assert (In cj (skipn i mask)) as Hc by (eapply skipn_In_le; [exact Hij|rewrite Ej; left; reflexivity]).
    specialize (Hd cj Hc). lra.
  - intros d Hd. apply Ti in Hd as [Hl Hd]. apply Tj. split; [exact Hl|]. intros c Hc. apply Hd.
    eapply skipn_In_le; eassumption.
Qed.

(** Every feature of the mask has its round, and with no feature there is nothing to report. *)
Theorem C139_one_round_per_feature : forall T M ds f uses_lda (lda : option (lda_kind * M) * list T) eval mask rs,
  rounds_of ds f uses_lda lda eval mask rs -> length rs = length mask.
Proof.
  intros T M ds f uses_lda lda eval. induction mask as [|c mask IH]; intros [|r rs] H; cbn [rounds_of] in H; try contradiction.
  - reflexivity.
  - cbn [length]. rewrite (IH rs) by apply H. reflexivity.
Qed.

Theorem C139_empty_mask_raises : forall T M argsort ds uses_lda (lda : option (lda_kind * M) * list T) eval save,
  outsample argsort ds uses_lda lda eval save [] = Raise AttributeError.
Proof. reflexivity. Qed.

Definition list_beqn (a b : list nat) : bool := if list_eq_dec Nat.eq_dec a b then true else false.

(** Five documents: the first without features, two with each. *)
Definition lro_ds : dataset :=
  mkDS (mkS [[(0, 1%Z)]; [(0, 2%Z)]; [(0, 3%Z)]; [(0, 4%Z)]; [(0, 5%Z)]] 1)
       (Some (mkF [[0; 0]; [1; 0]; [0; 1]; [2; 0]; [0; 3]]%Q 2))
       (Some (mkS [[(1, 1%Z)]; [(0, 1%Z)]; [(0, 1%Z)]; [(0, 1%Z)]; [(1, 1%Z)]] 5)) NoDict NoCats [10; 11; 12; 13; 14].

Example C139_example : exists s x,
  on_off (mkF [[0; 0]; [1; 0]; [0; 1]; [2; 0]; [0; 3]]%Q 2) [0; 1] /\
  outsample (T := nat) (M := unit) isort lro_ds false (None, [])
    (fun tr qu _ => Ok (if (list_beqn (order tr) [10] && list_beqn (order qu) [11; 13])
                        then fold_a else if (list_beqn (order tr) [10; 11; 13] && list_beqn (order qu) [12; 14])
                        then fold_b else [])) (Some (fun f => Ok f)) [0; 1] = Ok (s, [0; 1]) /\
  final_map s = Ok x /\ Qred x = (41 # 44)%Q.
Proof.
  eexists _, _. split.
  - intros d c Hd Hc. do 5 (destruct d as [|d]; [destruct Hc as [<-|[<-|[]]]; vm_compute; auto; (left; reflexivity) || (right; reflexivity)|]).
    cbn in Hd. lia.
  - split; [vm_compute; reflexivity|]. split; vm_compute; reflexivity.
Qed.

(** ** C140: the LDA model given to recommenders *)

(** A model trained on the whole dataset is accepted and its topics are those of the documents. *)
Theorem C140_single_fold_topics : forall T M (train : dataset -> res ((lda_kind * M) * list T)) ds fold file,
  saved_by train ds fold 1 = Ok file ->
  exists m tops, train ds = Ok (m, tops) /\ load_lda file (order ds) = Ok (m, tops).
Proof.
  intros T M train ds fold file H. unfold saved_by in H. cbn [Z.eqb Pos.eqb] in H.
  apply bind_ok in H as ([m tops] & Ht & [= <-]). exists m, tops. split; [exact Ht|].
  unfold load_lda, np_all_equal. rewrite Nat.eqb_refl.
  replace (forallb _ _) with true; [reflexivity|]. symmetry. apply forallb_forall. intros [a b] Hin.
  clear -Hin. induction (order ds) as [|x l IH]; [destruct Hin|]. destruct Hin as [E|Hin]; [injection E as -> ->; apply Nat.eqb_refl|auto].
Qed.

(** A model whose documents are in another order, or are others, is refused. *)
Theorem C140_other_orders_refused : forall T M (m : lda_kind * M) (tops : list T) saved_order desired,
  NoDup desired -> NoDup saved_order -> 2 <= length desired -> saved_order <> desired ->
  load_lda (saved_order, m, tops) desired = Raise ValueError.
Proof.
  intros T M m tops o d Nd No Hl Hne. unfold load_lda. replace (np_all_equal o d) with false; [reflexivity|].
  symmetry. unfold np_all_equal. destruct (Nat.eqb_spec (length o) (length d)) as [E|E].
  - apply not_true_is_false. intros H. apply Hne. clear -H E. revert d E H.
    induction o as [|a o IH]; intros [|b d] E H; try discriminate; [reflexivity|].
    cbn in H. apply andb_true_iff in H as [H1 H2]. apply Nat.eqb_eq in H1. subst b. f_equal. apply IH; [injection E; auto|exact H2].
  - destruct o as [|a [|a' o]].
    + destruct d as [|b [|b' d]]; [reflexivity|cbn in Hl; lia|reflexivity].
    + destruct d as [|b [|b' d]]; [cbn in Hl; lia|cbn in Hl; lia|]. cbn [forallb].
      apply not_true_is_false. intros H. apply andb_true_iff in H as [H1 H]. apply andb_true_iff in H as [H2 _].
      apply Nat.eqb_eq in H1, H2. subst. inversion Nd as [|? ? Hn _]. apply Hn. left. reflexivity.
    + destruct d as [|b [|b' d]]; [cbn in Hl; lia|cbn in Hl; lia|reflexivity].
Qed.

(** A model saved by a run over several folds is accepted as well, though it has topics only for the
    documents of its training part: there are too few, and row by row they are those of other documents. *)
Theorem C140_fold_model_has_too_few_topics : forall T M (train : dataset -> res ((lda_kind * M) * list T)) ds fold folds file,
  2 <= doc_count ds -> (1 < folds)%Z ->
  (forall d m tops, train d = Ok (m, tops) -> length tops = doc_count d) ->
  saved_by train ds fold folds = Ok file ->
  exists tr m tops, load_lda file (order ds) = Ok (m, tops) /\ train tr = Ok (m, tops) /\
    length tops < doc_count ds /\ exists ix, complete_rows ix ds tr /\ length ix = length tops.
Proof.
  intros T M train ds fold folds file HD Hn Ht H. unfold saved_by in H. destruct (Z.eqb_spec folds 1); [lia|].
  apply bind_ok in H as ([tr qu] & Hs & H). apply bind_ok in H as ([m tops] & Htr & [= <-]).
  exists tr, m, tops. split.
  { unfold load_lda, np_all_equal. rewrite Nat.eqb_refl.
    replace (forallb _ _) with true; [reflexivity|]. symmetry. apply forallb_forall. intros [a b] Hin.
    clear -Hin. induction (order ds) as [|x l IH]; [destruct Hin|]. destruct Hin as [E|Hin]; [injection E as -> ->; apply Nat.eqb_refl|auto]. }
  split; [exact Htr|].
  destruct (C04_split_keeps_records_together ds fold folds tr qu ltac:(lia) Hs) as (ix & qx & Hi & HP & HC & HQ).
  assert (length tops = length ix) as El.
  { rewrite (Ht _ _ _ Htr). destruct HC as [HC _]. unfold doc_count, nrows. apply rows_from_length in HC. exact HC. }
  split; [|exists ix; split; [exact HC|congruence]].
  apply Permutation_length in HP. rewrite app_length, seq_length in HP.
  assert (0 < length qx); [|lia].
  destruct (split_query_length (Z.of_nat (doc_count ds)) fold folds _ _ ltac:(lia) Hi) as (Lq & Lt).
  rewrite map_length in *. pose proof (query_size_bounds (Z.of_nat (doc_count ds)) folds ltac:(lia) Hn) as Hq. lia.
Qed.

(** The "topics" of a document are here its number, so that rows can be told apart. *)
Theorem C140_fold_model_topics_refuted : exists (train : dataset -> res ((lda_kind * unit) * list nat)) ds file m tops rows,
  (forall d, train d = Ok ((GibbsLda, tt), order d)) /\
  saved_by train ds 0 2 = Ok file /\ load_lda file (order ds) = Ok (m, tops) /\
  subset_lda (Some m, tops) [0; 1] = Ok (tt, rows) /\ order ds = [10; 11; 12; 13] /\ rows = [12; 13].
Proof.
  exists (fun d => Ok ((GibbsLda, tt), order d)).
  exists (mkDS (mkS [[(0, 1%Z)]; [(0, 2%Z)]; [(0, 3%Z)]; [(0, 4%Z)]] 1) None None NoDict NoCats [10; 11; 12; 13]).
  eexists _, _, _, _. split; [reflexivity|]. repeat (split; [vm_compute; reflexivity|]). reflexivity.
Qed.

(** A recommender built on LDA cannot be evaluated in this way without a saved LDA model, although the
    model is described as optional. *)
Theorem C140_lda_recommender_needs_model : forall T M argsort ds (tops : list T) eval save c rest tr qu ix,
  split_on_feature ds (c :: rest) = Ok (tr, qu, ix) ->
  outsample (M := M) argsort ds true (None, tops) eval save (c :: rest) = Raise TypeError.
Proof.
  intros T M argsort ds tops eval save c rest tr qu ix H. unfold outsample. cbn [outsample_loop]. rewrite H. reflexivity.
Qed.

Theorem C140_model_is_optional_refuted : exists eval,
  (exists r, outsample (T := nat) (M := unit) isort lro_ds false (None, []) eval None [0; 1] = Ok r) /\
  outsample (T := nat) (M := unit) isort lro_ds true (None, []) eval None [0; 1] = Raise TypeError.
Proof.
  exists (fun _ _ _ => Ok fold_a). split; [eexists; vm_compute; reflexivity|vm_compute; reflexivity].
Qed.

(** With the model of a single fold every round is given the topics of its training documents. *)
Example C140_example : exists file m tops s,
  saved_by (fun d => Ok ((VbLda, tt), order d)) lro_ds 0 1 = Ok file /\ load_lda file (order lro_ds) = Ok (m, tops) /\
  outsample isort lro_ds true (Some m, tops)
    (fun tr qu sub => match sub with
       | Some (tt, rows) => if list_beqn rows (order tr) then Ok fold_a else Raise ValueError
       | None => Raise ValueError end) None [0; 1] = Ok (s, []).
Proof. eexists _, _, _, _. do 2 (split; [vm_compute; reflexivity|]). vm_compute. reflexivity. Qed.

Print Assumptions C138_final_map_is_over_all_documents.
Print Assumptions C138_final_tables_are_over_all_documents.
Print Assumptions C138_final_mrr_weighs_by_documents.
Print Assumptions C138_final_mrr_is_over_all_links_refuted.
Print Assumptions C138_groups_without_documents_raise.
Print Assumptions C138_evaluation_finishes_refuted.
Print Assumptions C139_rounds.
Print Assumptions C139_queried_documents_are_unseen.
Print Assumptions C139_one_round_per_feature.
Print Assumptions C139_empty_mask_raises.
Print Assumptions C140_single_fold_topics.
Print Assumptions C140_other_orders_refused.
Print Assumptions C140_fold_model_has_too_few_topics.
Print Assumptions C140_fold_model_topics_refuted.
Print Assumptions C140_lda_recommender_needs_model.
Print Assumptions C140_model_is_optional_refuted.
