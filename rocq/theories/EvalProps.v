(** * C23 to C29: ranking metrics. *)
From Coq Require Import List ZArith QArith Arith Bool Lia Lqa Permutation.
From Verif Require Import Base EvalModel EvalSpec EvalProofs EvalGroups.
Import ListNotations.
Open Scope nat_scope.

(** An argsort for the examples: insertion sort of positions by value. *)
Fixpoint ins (l : list Q) (i : nat) (s : list nat) : list nat :=
  match s with
  | [] => [i]
  | j :: r => if Qle_bool (nth i l 0%Q) (nth j l 0%Q) then i :: s else j :: ins l i r
  end.
Definition isort (l : list Q) : list nat := fold_right (ins l) [] (seq 0 (length l)).

Lemma ins_perm l i s : Permutation (ins l i s) (i :: s).
Proof.
  induction s as [|j r IH]; cbn; [reflexivity|]. destruct (Qle_bool _ _); [reflexivity|].
  rewrite IH. constructor.
Qed.

(** Ascending by value. *)
Definition asc (l : list Q) (s : list nat) : Prop :=
  forall i j a b, i < j -> nth_error s i = Some a -> nth_error s j = Some b -> (nth a l 0 <= nth b l 0)%Q.

Lemma asc_cons l a s : asc l (a :: s) <-> asc l s /\ forall b, In b s -> (nth a l 0 <= nth b l 0)%Q.
Proof.
  split.
  - intros H. split.
    + intros i j x y Hij Hx Hy. apply (H (S i) (S j)); auto. lia.
    + intros b Hb. apply In_nth_error in Hb as (j & Hj). apply (H 0 (S j)); auto. lia.
  - intros [H1 H2] [|i] [|j] x y Hij Hx Hy; cbn in Hx, Hy; try lia.
    + injection Hx as <-. apply H2. eapply nth_error_In; eauto.
    + apply (H1 i j); auto. lia.
Qed.

Lemma ins_asc l i s : asc l s -> asc l (ins l i s).
Proof.
  induction s as [|j r IH]; intros H; cbn [ins].
  - apply asc_cons. split; [intros [|a] b x y _ X; discriminate|intros b []].
  - destruct (Qle_bool _ _) eqn:E.
    + apply Qle_bool_iff in E. apply asc_cons. split; [exact H|]. apply asc_cons in H as [_ H].
      intros b [<-|Hb]; [exact E|]. specialize (H b Hb). lra.
    + assert (~ (nth i l 0 <= nth j l 0)%Q) as E' by (rewrite <- Qle_bool_iff; congruence).
      apply asc_cons in H as [H1 H2]. apply asc_cons. split; [auto|]. intros b Hb.
      eapply Permutation_in in Hb; [|apply ins_perm]. destruct Hb as [<-|Hb]; [lra|auto].
Qed.

Lemma isort_sorts : sorts isort.
Proof.
  intros l. unfold isort. generalize (seq 0 (length l)) as s. induction s as [|i s [IH1 IH2]]; cbn [fold_right].
  - split; [reflexivity|]. intros [|i] j a b _ X; discriminate.
  - split.
    + rewrite ins_perm. constructor. exact IH1.
    + apply ins_asc. exact IH2.
Qed.

(** ** C23 *)

(** Whenever a value is returned it lies in [0,1]. *)
Theorem C23_map_between_zero_and_one : forall argsort docs x,
  mean_average_prec argsort docs = Ok x -> (0 <= x <= 1)%Q.
Proof.
  intros argsort docs x H. unfold mean_average_prec in H. apply bind_ok in H as (s & Hs & H).
  destruct (Nat.eqb_spec (length docs) 0) as [|Hn]; [discriminate|]. injection H as <-.
  destruct (sum_res_ok _ _ _ Hs) as (g & G1 & G2 & G3).
  assert (HB : forall d, In d docs -> (0 <= g d <= 1)%Q).
  { intros d Hd. destruct (G1 d Hd) as (v & Hv). rewrite (G2 d v Hv).
    destruct (average_prec_ok argsort d) as (w & Hw & Hb & _).
    - intros Hne Hr. destruct d as [expt row]. cbn [fst snd] in *. unfold average_prec in Hv.
      destruct expt as [|e ex]; [congruence|]. rewrite Hr in Hv. cbn in Hv. discriminate.
    - congruence. }
  assert (HL : (0 < qnat (length docs))%Q) by (apply qnat_pos; lia).
  assert (0 <= s)%Q.
  { rewrite G3. setoid_replace 0%Q with (qsum (fun _ : doc => 0%Q) docs) by (rewrite qsum_const; ring).
    apply qsum_le. apply HB. }
  assert (s <= qnat (length docs))%Q.
  { rewrite G3. setoid_replace (qnat (length docs)) with (qsum (fun _ : doc => 1%Q) docs) by (rewrite qsum_const; ring).
    apply qsum_le. apply HB. }
  change (inject_Z (Z.of_nat (length docs))) with (qnat (length docs)). split.
  - apply Qle_shift_div_l; lra.
  - apply Qle_shift_div_r; lra.
Qed.

(** It returns one exactly when there are documents and each document with
    expected links has at least one scored link. *)
Theorem C23_map_returns_iff : forall argsort docs, sorts argsort ->
  (exists x, mean_average_prec argsort docs = Ok x) <->
  (docs <> [] /\ forall d, In d docs -> fst d <> [] -> snd d <> []).
Proof.
  intros argsort docs Hs. unfold mean_average_prec. split.
  - intros (x & H). apply bind_ok in H as (s & E & H). split.
    + intros ->. discriminate.
    + intros d Hd Hne Hr. destruct (sum_res_ok _ _ _ E) as (g & G1 & _). destruct (G1 d Hd) as (v & Hv).
      destruct d as [expt row]. cbn [fst snd] in *. unfold average_prec in Hv.
      destruct expt as [|e ex]; [congruence|]. rewrite (proj2 (ranking_nil argsort row Hs) Hr) in Hv. discriminate.
  - intros [Hn H]. destruct (sum_res_total (average_prec argsort) docs) as (s & ->).
    + intros d Hd. destruct (average_prec_ok argsort d) as (x & Hx & _); [|eauto].
      intros Hne. rewrite ranking_nil by exact Hs. auto.
    + cbn [bind]. destruct docs; [congruence|]. cbn. eauto.
Qed.

(** Perfect rankings: the fraction of documents that have links. *)
Theorem C23_map_of_perfect_ranking : forall argsort (docs : list doc), sorts argsort -> docs <> [] ->
  (forall d, In d docs -> NoDup (map fst (snd d)) /\ scores_favour (fst d) (snd d)) ->
  exists x, mean_average_prec argsort docs = Ok x /\
    (x == qnat (length (with_links docs)) / qnat (length docs))%Q.
Proof.
  intros argsort docs Hs Hne H. unfold mean_average_prec.
  assert (HA : forall d, In d docs -> exists x, average_prec argsort d = Ok x /\
      (x == if (match fst d with [] => false | _ => true end) then 1 else 0)%Q).
  { intros d Hd. destruct (H d Hd) as [N F]. destruct (fst d) as [|e ex] eqn:E.
    - exists 0%Q. destruct d as [expt row]. cbn in *. subst. split; reflexivity.
    - apply average_prec_perfect; [congruence|]. rewrite E. apply scores_perfect; auto. }
  destruct (sum_res_total (average_prec argsort) docs) as (s & E).
  { intros d Hd. destruct (HA d Hd) as (x & Hx & _). eauto. }
  rewrite E. cbn [bind]. destruct (Nat.eqb_spec (length docs) 0) as [L|L]; [destruct docs; [congruence|discriminate]|].
  eexists. split; [reflexivity|]. destruct (sum_res_ok _ _ _ E) as (g & G1 & G2 & G3).
  assert (s == qnat (length (with_links docs)))%Q as ->; [|reflexivity].
  rewrite G3.
  transitivity (qsum (fun _ : doc => 1%Q) (with_links docs)); [|rewrite qsum_const; ring].
  unfold with_links. rewrite qsum_filter. apply qsum_ext. intros d Hd. destruct (HA d Hd) as (x & Hx & Ex).
  rewrite (G2 d x Hx). exact Ex.
Qed.

Definition val (r : res Q) : Q := match r with Ok x => Qred x | Raise _ => (-1#1)%Q end.

(** Two documents, one with links; the links are on top. *)
Definition c23_docs : list doc :=
  [([3; 1], [(0, (1#10)%Q); (1, (7#10)%Q); (3, (9#10)%Q)]); ([], [(2, (1#2)%Q)])].
Example C23_case :
  (forall d, In d c23_docs -> NoDup (map fst (snd d)) /\ scores_favour (fst d) (snd d)) /\
  val (mean_average_prec isort c23_docs) = (1#2)%Q.
Proof.
  split; [|vm_compute; reflexivity].
  intros d [<-|[<-|[]]]; cbn [fst snd map].
  - split; [repeat constructor; cbn; intuition congruence|]. split.
    + cbn. intuition.
    + cbn. intros x p y q Hx Hy Ix Iy.
      repeat (destruct Hx as [[= <- <-]|Hx]; [|]); try destruct Hx; 
      repeat (destruct Hy as [[= <- <-]|Hy]; [|]); try destruct Hy; try (exfalso; lia); reflexivity.
  - split; [repeat constructor; cbn; intuition congruence|]. split; [intros e []|]. intros x p y q _ _ [].
Qed.

(** An unexpected link on top lowers it. *)
Example C23_imperfect_case :
  val (mean_average_prec isort [([3], [(0, (9#10)%Q); (3, (1#10)%Q)])]) = (1#2)%Q.
Proof. vm_compute. reflexivity. Qed.

(** "This metric penalises absent links" (docstring).  If an absent link added
    nothing, the score could not exceed the share of expected links that were
    ranked; it does. *)
Theorem C23_absent_links_score_zero_refuted : exists argsort expt row x, sorts argsort /\
  mean_average_prec argsort [(expt, row)] = Ok x /\
  (qnat (length (filter (fun e => if in_dec Nat.eq_dec e (map fst row) then true else false) expt))
   / qnat (length expt) < x)%Q.
Proof.
  exists isort, [1; 2], [(1, (9#10)%Q)]. eexists. split; [apply isort_sorts|].
  split; [vm_compute; reflexivity|]. vm_compute. reflexivity.
Qed.

(** ** C24 *)

(** With m = 1 the first two of the ranking are counted, but divided by one. *)
Theorem C24_precision_at_most_one_refuted : exists argsort at_ groups docs t x,
  sorts argsort /\ mean_prec_rec_at argsort at_ groups docs = Ok t /\
  lookup AllGroups t = Some x /\ exists p, In p (tprec x) /\ (1 < p)%Q.
Proof.
  exists isort, (Some [1]), (Some [(0, 10)%Z]), [([3; 1], [(0, (1#10)%Q); (1, (7#10)%Q); (3, (9#10)%Q)])].
  eexists _, _. split; [apply isort_sorts|]. split; [vm_compute; reflexivity|].
  split; [vm_compute; reflexivity|]. cbn [tprec]. eexists. split; [left; reflexivity|]. reflexivity.
Qed.

Lemma mean_le {A} (f : A -> Q) (c : Q) l n : (0 <= c)%Q -> length l <= n -> 0 < n ->
  (forall a, In a l -> f a <= c)%Q -> (qsum f l / qnat n <= c)%Q.
Proof.
  intros Hc Hl Hn H. apply Qle_shift_div_r; [apply qnat_pos; lia|].
  apply Qle_trans with (qsum (fun _ : A => c) l); [apply qsum_le; exact H|]. rewrite qsum_const.
  rewrite !(Qmult_comm c). apply Qmult_le_compat_r; [apply qnat_le; lia|exact Hc].
Qed.
Lemma mean_ge0 {A} (f : A -> Q) l n : 0 < n ->
  (forall a, In a l -> 0 <= f a)%Q -> (0 <= qsum f l / qnat n)%Q.
Proof.
  intros Hn H. apply Qle_shift_div_l; [apply qnat_pos; lia|]. rewrite Qmult_0_l.
  setoid_replace 0%Q with (qsum (fun _ : A => 0%Q) l) by (rewrite qsum_const; ring). apply qsum_le. exact H.
Qed.

(** What does hold: at most (m+1)/m. *)
Theorem C24_precision_bound : forall argsort at_ groups docs t g x i m,
  mean_prec_rec_at argsort at_ groups docs = Ok t -> lookup g t = Some x ->
  nth_error (ms_of at_) i = Some m ->
  exists p, nth_error (tprec x) i = Some p /\ (0 <= p)%Q /\ (p <= qnat (m + 1) / qnat m)%Q.
Proof.
  intros argsort at_ groups docs t g x i m H Hx Hm. apply result_spec in H as [K R].
  assert (Hg : In g (all_groups groups)) by (apply keys_In; rewrite <- K; apply lookup_key; eauto).
  destruct (R g Hg) as (x' & Hx' & HC & L1 & L2 & V). assert (x' = x) as -> by congruence. cbv zeta in *.
  destruct (V i m Hm) as [P _].
  assert (Hi : i < length (tprec x)) by (rewrite L1; apply nth_error_Some; congruence).
  exists (nth i (tprec x) 0%Q). split; [apply nth_error_nth'; exact Hi|].
  assert (HQ : forall a b, (0 <= qnat a / qnat b)%Q).
  { intros a b. destruct b; [unfold Qdiv; rewrite qnat_0; change (/ 0)%Q with 0%Q; rewrite Qmult_0_r; apply Qle_refl|].
    apply Qle_shift_div_l; [apply qnat_pos; lia|]. rewrite Qmult_0_l. apply qnat_nonneg. }
  split; rewrite P.
  - apply mean_ge0; [lia|]. intros d _. apply HQ.
  - apply mean_le; [apply HQ|lia|lia|]. intros d _. unfold doc_prec, Qdiv.
    apply Qmult_le_compat_r; [apply qnat_le, hits_le_k|].
    specialize (HQ 1 m). unfold Qdiv in HQ. change (qnat 1) with 1%Q in HQ. rewrite Qmult_1_l in HQ. exact HQ.
Qed.

(** It is at most one if no document has more than m distinct expected links. *)
Theorem C24_precision_at_most_one_few_links : forall argsort at_ groups docs t g x i m,
  mean_prec_rec_at argsort at_ groups docs = Ok t -> lookup g t = Some x ->
  nth_error (ms_of at_) i = Some m ->
  (forall d, In d docs -> length (nodup Nat.eq_dec (fst d)) <= m) ->
  exists p, nth_error (tprec x) i = Some p /\ (0 <= p <= 1)%Q.
Proof.
  intros argsort at_ groups docs t g x i m H Hx Hm Hd.
  destruct (C24_precision_bound _ _ _ _ _ _ _ _ _ H Hx Hm) as (p & Hp & P0 & _).
  exists p. split; [exact Hp|]. split; [exact P0|]. apply result_spec in H as [K R].
  assert (Hg : In g (all_groups groups)) by (apply keys_In; rewrite <- K; apply lookup_key; eauto).
  destruct (R g Hg) as (x' & Hx' & HC & L1 & L2 & V). assert (x' = x) as -> by congruence. cbv zeta in *.
  destruct (V i m Hm) as [P _]. rewrite (nth_error_nth _ _ 0%Q Hp) in P. rewrite P.
  apply mean_le; [lra|lia|lia|]. intros d Hd'. apply filter_In in Hd' as [Hd' _]. specialize (Hd d Hd').
  unfold doc_prec. pose proof (hits_le_expt (m + 1) (ranking argsort (snd d)) (fst d)) as HL.
  destruct m as [|m'].
  - rewrite qnat_0. unfold Qdiv. change (/ 0)%Q with 0%Q. rewrite Qmult_0_r. lra.
  - apply Qle_shift_div_r; [apply qnat_pos; lia|]. rewrite Qmult_1_l. apply qnat_le. lia.
Qed.

Definition c24_docs : list doc :=
  [([3; 1], [(0, (1#10)%Q); (1, (7#10)%Q); (3, (9#10)%Q)]); ([4], [(2, (1#2)%Q); (4, (1#3)%Q)]); ([], [])].
Example C24_case : exists t x, mean_prec_rec_at isort (Some [2; 5]) (Some [(0, 1)%Z; (2, 9)%Z]) c24_docs = Ok t /\
  lookup (2, 9)%Z t = Some x /\ map Qred (tprec x) = [1; 2#5]%Q /\ map Qred (trec x) = [1; 1]%Q /\
  forall d, In d c24_docs -> length (nodup Nat.eq_dec (fst d)) <= 2.
Proof.
  eexists _, _. split; [vm_compute; reflexivity|]. split; [vm_compute; reflexivity|].
  split; [vm_compute; reflexivity|]. split; [vm_compute; reflexivity|].
  intros d [<-|[<-|[<-|[]]]]; vm_compute; lia.
Qed.

(** ** C25 *)
Theorem C25_recall_between_zero_and_one : forall argsort at_ groups docs t g x i m,
  mean_prec_rec_at argsort at_ groups docs = Ok t -> lookup g t = Some x ->
  nth_error (ms_of at_) i = Some m ->
  exists r, nth_error (trec x) i = Some r /\ (0 <= r <= 1)%Q.
Proof.
  intros argsort at_ groups docs t g x i m H Hx Hm. apply result_spec in H as [K R].
  assert (Hg : In g (all_groups groups)) by (apply keys_In; rewrite <- K; apply lookup_key; eauto).
  destruct (R g Hg) as (x' & Hx' & HC & L1 & L2 & V). assert (x' = x) as -> by congruence. cbv zeta in *.
  destruct (V i m Hm) as [_ P].
  assert (Hi : i < length (trec x)) by (rewrite L2; apply nth_error_Some; congruence).
  exists (nth i (trec x) 0%Q). split; [apply nth_error_nth'; exact Hi|].
  assert (HD : forall d, In d (filter (memberb (all_groups groups) g) docs) ->
     (0 < qnat (length (nodup Nat.eq_dec (fst d))))%Q).
  { intros d Hd. apply filter_In in Hd as [_ Hd]. apply qnat_pos. apply pyset_nonempty. unfold memberb in Hd.
    destruct (fst d); [discriminate|discriminate]. }
  split; rewrite P.
  - apply mean_ge0; [lia|]. intros d Hd. specialize (HD d Hd). apply Qle_shift_div_l; [exact HD|].
    rewrite Qmult_0_l. apply qnat_nonneg.
  - apply mean_le; [lra|lia|lia|]. intros d Hd. specialize (HD d Hd). apply Qle_shift_div_r; [exact HD|].
    rewrite Qmult_1_l. apply qnat_le, hits_le_expt.
Qed.

(** A larger m, in the same or in another call on the same documents. *)
Theorem C25_recall_grows_with_m : forall argsort at1 at2 groups docs t1 t2 g x1 x2 i1 i2 m1 m2 r1 r2,
  mean_prec_rec_at argsort at1 groups docs = Ok t1 -> lookup g t1 = Some x1 ->
  mean_prec_rec_at argsort at2 groups docs = Ok t2 -> lookup g t2 = Some x2 ->
  nth_error (ms_of at1) i1 = Some m1 -> nth_error (ms_of at2) i2 = Some m2 -> m1 <= m2 ->
  nth_error (trec x1) i1 = Some r1 -> nth_error (trec x2) i2 = Some r2 ->
  (r1 <= r2)%Q.
Proof.
  intros argsort at1 at2 groups docs t1 t2 g x1 x2 i1 i2 m1 m2 r1 r2 H1 Hx1 H2 Hx2 Hm1 Hm2 Hle Hr1 Hr2.
  apply result_spec in H1 as [K1 R1]. apply result_spec in H2 as [K2 R2].
  assert (Hg : In g (all_groups groups)) by (apply keys_In; rewrite <- K1; apply lookup_key; eauto).
  destruct (R1 g Hg) as (y1 & Hy1 & HC1 & _ & _ & V1). assert (y1 = x1) as -> by congruence.
  destruct (R2 g Hg) as (y2 & Hy2 & HC2 & _ & _ & V2). assert (y2 = x2) as -> by congruence.
  cbv zeta in *. destruct (V1 i1 m1 Hm1) as [_ P1]. destruct (V2 i2 m2 Hm2) as [_ P2].
  rewrite (nth_error_nth _ _ 0%Q Hr1) in P1. rewrite (nth_error_nth _ _ 0%Q Hr2) in P2. rewrite P1, P2.
  set (sel := filter _ docs) in *. unfold Qdiv at 1 2.
  assert (HQ : (0 < qnat (Nat.max 1 (length sel)))%Q) by (apply qnat_pos; lia).
  apply Qmult_le_compat_r; [|apply Qlt_le_weak, Qinv_lt_0_compat; exact HQ].
  apply qsum_le. intros d Hd. apply filter_In in Hd as [_ Hd].
  assert (HD : (0 < qnat (length (nodup Nat.eq_dec (fst d))))%Q).
  { apply qnat_pos. apply pyset_nonempty. unfold memberb in Hd. destruct (fst d); [discriminate|discriminate]. }
  unfold doc_rec, Qdiv. apply Qmult_le_compat_r; [|apply Qlt_le_weak, Qinv_lt_0_compat; exact HD].
  apply qnat_le, hits_mono. lia.
Qed.

(** Not only bounded: the value is the mean of the documents' shares of
    expected links among the first m + 1 of the ranking. *)
Theorem C25_recall_value : forall argsort at_ groups docs t i m,
  mean_prec_rec_at argsort at_ groups docs = Ok t -> nth_error (ms_of at_) i = Some m ->
  exists x r, lookup AllGroups t = Some x /\ nth_error (trec x) i = Some r /\
    (r == qsum (fun d => qnat (hits (m + 1) (ranking argsort (snd d)) (fst d)) /
                         qnat (length (nodup Nat.eq_dec (fst d)))) (with_links docs)
          / qnat (Nat.max 1 (length (with_links docs))))%Q.
Proof.
  intros argsort at_ groups docs t i m H Hm. apply result_spec in H as [K R].
  destruct (R AllGroups (all_groups_In_all groups)) as (x & Hx & HC & L1 & L2 & V). cbv zeta in *.
  destruct (V i m Hm) as [_ P]. exists x, (nth i (trec x) 0%Q). split; [exact Hx|].
  split. { apply nth_error_nth'. rewrite L2. apply nth_error_Some. congruence. }
  rewrite P, member_all. reflexivity.
Qed.

Example C25_case : exists t x, mean_prec_rec_at isort (Some [1; 2; 5]) (Some [(0, 9)%Z]) c24_docs = Ok t /\
  lookup AllGroups t = Some x /\ map Qred (trec x) = [1; 1; 1]%Q.
Proof. eexists _, _. repeat (split; [vm_compute; reflexivity|]). vm_compute. reflexivity. Qed.

Example C25_growing_case : exists t x, mean_prec_rec_at isort (Some [1; 2]) (Some [(0, 9)%Z])
   [([0; 1], [(0, (1#10)%Q); (1, (7#10)%Q); (3, (9#10)%Q)])] = Ok t /\
  lookup AllGroups t = Some x /\ map Qred (trec x) = [1#2; 1]%Q.
Proof. eexists _, _. repeat (split; [vm_compute; reflexivity|]). vm_compute. reflexivity. Qed.

(** ** C26 *)

(** Without groups the call fails as soon as some document has a link. *)
Theorem C26_default_groups_fail_for_any_link : forall argsort at_ docs d,
  In d docs -> fst d <> [] -> ~ exists t, mean_prec_rec_at argsort at_ None docs = Ok t.
Proof.
  intros argsort at_ docs d Hd Hne (t & H). unfold mean_prec_rec_at in H. apply bind_ok in H as (t1 & H & _).
  destruct (proj1 (fold_total argsort (ms_of at_) (all_groups None) docs _) (ex_intro _ _ H) d Hd Hne) as [(g & Hg) _].
  pose proof (in_group_In _ _ _ Hg) as Hin. cbn in Hin. destruct Hin as [<-|[]].
  apply (in_group_notall _ _ _ Hg). reflexivity.
Qed.

Theorem C26_default_groups_work_refuted : exists argsort at_ docs, sorts argsort /\
  mean_prec_rec_at argsort at_ None docs = Raise IndexError.
Proof. exists isort, (Some [2]), c24_docs. split; [apply isort_sorts|]. vm_compute. reflexivity. Qed.

Theorem C26_argument_untouched_refuted : exists gs, caller_groups (Some gs) <> Some gs.
Proof. exists [(0, 10)%Z]. discriminate. Qed.

(** What does hold: the caller's list is left alone exactly if it names the
    all-inclusive group, otherwise that group is appended. *)
Theorem C26_argument_characterised : forall gs,
  (In AllGroups gs -> caller_groups (Some gs) = Some gs) /\
  (~ In AllGroups gs -> caller_groups (Some gs) = Some (gs ++ [AllGroups])).
Proof.
  intros gs. unfold caller_groups, all_groups.
  destruct (existsb (geqb AllGroups) gs) eqn:E.
  - split; [reflexivity|]. intros H. exfalso. apply H. apply existsb_exists in E as (x & Hx & E).
    destruct (geqb_spec AllGroups x); [subst; exact Hx|discriminate].
  - split; [|reflexivity]. intros H. exfalso. rewrite <- Bool.not_true_iff_false in E. apply E.
    apply existsb_exists. exists AllGroups. split; [exact H|apply geqb_refl].
Qed.

(** When the call returns at all. *)
Theorem C26_returns_iff_groups_cover : forall argsort at_ groups docs, sorts argsort ->
  (exists t, mean_prec_rec_at argsort at_ groups docs = Ok t) <->
  (forall d, In d docs -> fst d <> [] ->
     (exists g, In g (all_groups groups) /\ fst g <> (-1)%Z /\
        (fst g <= Z.of_nat (length (fst d)) <= snd g)%Z) /\
     (snd d = [] \/ ~ In 0 (ms_of at_))).
Proof.
  intros argsort at_ groups docs Hs. rewrite returns_iff by exact Hs.
  assert (HG : forall n, (exists g, in_group (all_groups groups) n g) <->
     exists g, In g (all_groups groups) /\ fst g <> (-1)%Z /\ (fst g <= Z.of_nat n <= snd g)%Z).
  { intros n. generalize (all_groups groups) as gs. split.
    - intros (g & Hg). exists g. pose proof (in_group_In _ _ _ Hg). destruct Hg as (b & a & _ & H1 & H2 & _). auto.
    - intros (g & Hin & H1 & H2). destruct (find_group n gs) as [h|e] eqn:E; [exists h; apply find_group_ok; exact E|].
      exfalso. induction gs as [|h gs IH]; [destruct Hin|]. cbn [find_group] in E.
      destruct (_ || _)%bool eqn:C; [|discriminate]. destruct Hin as [->|Hin]; [|auto].
      cbn [fst AllGroups] in C. lia. }
  split; intros H d Hd Hne; specialize (H d Hd Hne) as [H1 H2]; (split; [apply HG; exact H1|exact H2]).
Qed.

Example C26_case :
  (exists t, mean_prec_rec_at isort (Some [2]) (Some [(0, 1)%Z; (2, 9)%Z]) c24_docs = Ok t) /\
  mean_prec_rec_at isort (Some [2]) None c24_docs = Raise IndexError /\
  mean_prec_rec_at isort (Some [2]) (Some [(0, 1)%Z]) c24_docs = Raise IndexError.
Proof. split; [eexists; vm_compute; reflexivity|]. split; vm_compute; reflexivity. Qed.

(** ** C27 *)

(** The ranks (from one) of the expected links that were found, over all documents. *)
Definition found_ranks (argsort : list Q -> list nat) (docs : list doc) (rs : list nat) : Prop :=
  exists rss, rs = concat rss /\
    Forall2 (fun d l => exists es, Permutation es (filter (fun e => if in_dec Nat.eq_dec e (map fst (snd d)) then true else false) (fst d)) /\
                                   Forall2 (has_rank (ranking argsort (snd d))) es l) docs rss.

Lemma find_pos_rank recv e : In e recv -> has_rank recv e (find_pos e recv + 1).
Proof.
  intros H. split; [lia|]. rewrite Nat.add_sub. split; [apply find_pos_spec; exact H|].
  induction recv as [|a l IH]; [destruct H|]. cbn. destruct (Nat.eqb_spec a e) as [->|Hne]; [intros; lia|].
  intros [|i] Hi; cbn; [congruence|]. apply IH; [destruct H; [congruence|assumption]|lia].
Qed.

Lemma mrr_doc_found argsort d : sorts argsort -> NoDup (fst d) -> NoDup (map fst (snd d)) ->
  exists l, (exists es, Permutation es (filter (fun e => if in_dec Nat.eq_dec e (map fst (snd d)) then true else false) (fst d)) /\
              Forall2 (has_rank (ranking argsort (snd d))) es l) /\
    snd (mrr_doc argsort d) = length l /\
    (fst (mrr_doc argsort d) == qsum (fun r => 1 / qnat r) l)%Q.
Proof.
  intros Hs Ne Nr. pose proof (ranking_perm argsort (snd d) Hs) as HP.
  set (recv := ranking argsort (snd d)) in *.
  assert (Nrecv : NoDup recv) by (eapply Permutation_NoDup; [apply Permutation_sym; exact HP|exact Nr]).
  set (es := filter (fun e => if in_dec Nat.eq_dec e (map fst (snd d)) then true else false) (fst d)).
  assert (Hes : forall e, In e es -> In e recv).
  { intros e He. apply filter_In in He as [_ He]. destruct (in_dec _ e _) as [X|]; [|discriminate].
    eapply Permutation_in; [apply Permutation_sym; exact HP|exact X]. }
  exists (map (fun e => find_pos e recv + 1) es). split; [exists es; split; [reflexivity|]|].
  - clear - Hes. induction es as [|e l IH]; cbn; constructor.
    + apply find_pos_rank, Hes. left. auto.
    + apply IH. intros; apply Hes; right; auto.
  - unfold mrr_doc. fold recv. destruct (mrr_loop_spec recv 0 (fst d) Nrecv Ne) as [S C].
    assert (HE : filter (fun e => if in_dec Nat.eq_dec e recv then true else false) (fst d) = es).
    { apply filter_ext. intros e. destruct (in_dec Nat.eq_dec e recv) as [X|X], (in_dec Nat.eq_dec e (map fst (snd d))) as [Y|Y]; auto; exfalso.
      - apply Y. eapply Permutation_in; eauto.
      - apply X. eapply Permutation_in; [apply Permutation_sym; exact HP|exact Y]. }
    split; [rewrite C, HE, map_length; reflexivity|]. rewrite S.
    transitivity (qsum (fun e => 1 / qnat (find_pos e recv + 1))%Q es).
    + rewrite <- HE, qsum_filter. apply qsum_ext. intros e _. unfold recip.
      destruct (in_dec Nat.eq_dec e recv); [rewrite Nat.add_0_l|]; reflexivity.
    + clear. induction es as [|e l IH]; [reflexivity|]. cbn [map]. rewrite !qsum_cons, IH. reflexivity.
Qed.

Lemma mrr_found argsort docs : sorts argsort ->
  (forall d, In d docs -> NoDup (fst d) /\ NoDup (map fst (snd d))) ->
  exists rs, found_ranks argsort docs rs /\
    sumN (map (fun d => snd (mrr_doc argsort d)) docs) = length rs /\
    (fold_right Qplus 0 (map (fun d => fst (mrr_doc argsort d)) docs) == qsum (fun r => 1 / qnat r) rs)%Q.
Proof.
  intros Hs. induction docs as [|d docs IH]; intros H.
  - exists []. split; [exists []; split; constructor|]. split; reflexivity.
  - destruct IH as (rs & (rss & -> & HF) & C & S); [intros; apply H; right; auto|].
    destruct (H d (or_introl eq_refl)) as [N1 N2].
    destruct (mrr_doc_found argsort d Hs N1 N2) as (l & E & Cd & Sd).
    exists (l ++ concat rss). split; [exists (l :: rss); split; [reflexivity|constructor; assumption]|].
    split.
    + cbn [map]. unfold sumN in *. cbn [fold_right]. rewrite C, Cd, app_length. reflexivity.
    + cbn [map fold_right]. rewrite S, Sd, qsum_app. reflexivity.
Qed.

(** The value is the mean of the reciprocal ranks; it lies in (0,1]. *)
Theorem C27_mrr_is_mean_reciprocal_rank : forall argsort docs x, sorts argsort ->
  (forall d, In d docs -> NoDup (fst d) /\ NoDup (map fst (snd d))) ->
  mean_reciprocal_rank argsort docs = Ok x ->
  exists rs, found_ranks argsort docs rs /\ rs <> [] /\
    (x == qsum (fun r => 1 / qnat r) rs / qnat (length rs))%Q /\ (0 < x <= 1)%Q.
Proof.
  intros argsort docs x Hs H E. destruct (mrr_found argsort docs Hs H) as (rs & HF & C & S).
  unfold mean_reciprocal_rank in E. destruct (Nat.eqb_spec (sumN (map (fun d => snd (mrr_doc argsort d)) docs)) 0) as [|Hn]; [discriminate|].
  injection E as <-. rewrite C in *. exists rs. split; [exact HF|].
  split; [intros ->; apply Hn; reflexivity|]. split; [rewrite S; reflexivity|]. rewrite S.
  change (inject_Z (Z.of_nat (length rs))) with (qnat (length rs)).
  assert (HL : (0 < qnat (length rs))%Q) by (apply qnat_pos; lia).
  assert (HR : forall r, In r rs -> 0 < r).
  { destruct HF as (rss & -> & HF). clear - HF. intros r Hr. apply in_concat in Hr as (l & Hl & Hr).
    induction HF as [|d l' docs rss HE HF IH]; [destruct Hl|]. destruct Hl as [->|Hl]; [|auto].
    destruct HE as (es & _ & HE). clear - HE Hr. induction HE as [|e r' es l HH HE IH]; [destruct Hr|].
    destruct Hr as [->|Hr]; [destruct HH; assumption|auto]. }
  assert (HB : forall r, In r rs -> (0 < 1 / qnat r <= 1)%Q).
  { intros r Hr. specialize (HR r Hr). pose proof (qnat_pos r HR). pose proof (qnat_le 1 r HR) as X. change (qnat 1) with 1%Q in X.
    split; [apply Qlt_shift_div_l; lra|apply Qle_shift_div_r; lra]. }
  split.
  - apply Qlt_shift_div_l; [exact HL|]. rewrite Qmult_0_l. destruct rs as [|r rs]; [exfalso; apply Hn; reflexivity|].
    rewrite qsum_cons. pose proof (HB r (or_introl eq_refl)).
    assert (0 <= qsum (fun r => 1 / qnat r) rs)%Q; [|lra].
    setoid_replace 0%Q with (qsum (fun _ : nat => 0%Q) rs) by (rewrite qsum_const; ring).
    apply qsum_le. intros a Ha. apply Qlt_le_weak. apply HB. right. exact Ha.
  - apply Qle_shift_div_r; [exact HL|]. rewrite Qmult_1_l.
    setoid_replace (qnat (length rs)) with (qsum (fun _ : nat => 1%Q) rs) by (rewrite qsum_const; ring).
    apply qsum_le. intros a Ha. apply HB. exact Ha.
Qed.

(** It fails exactly when no expected link is found anywhere. *)
Theorem C27_mrr_fails_iff_nothing_found : forall argsort docs, sorts argsort ->
  (forall d, In d docs -> NoDup (fst d) /\ NoDup (map fst (snd d))) ->
  (mean_reciprocal_rank argsort docs = Raise ZeroDivisionError <->
   forall d e, In d docs -> In e (fst d) -> ~ In e (map fst (snd d))) /\
  (mean_reciprocal_rank argsort docs <> Raise ZeroDivisionError -> exists x, mean_reciprocal_rank argsort docs = Ok x).
Proof.
  intros argsort docs Hs H. split.
  - destruct (mrr_found argsort docs Hs H) as (rs & HF & C & S).
    assert (E : mean_reciprocal_rank argsort docs = Raise ZeroDivisionError <-> rs = []).
    { unfold mean_reciprocal_rank. rewrite C. destruct rs; cbn; split; intros; congruence. }
    rewrite E. destruct HF as (rss & -> & HF). clear - HF. split.
    + intros Hc d e Hd He Hin. revert Hc. induction HF as [|d' l docs rss HE HF IH]; [destruct Hd|].
      cbn. intros Hc. apply app_eq_nil in Hc as [-> Hc]. destruct Hd as [->|Hd]; [|auto].
      destruct HE as (es & HP & HE). inversion HE; subst. apply Permutation_nil in HP.
      assert (In e []) as [].
      rewrite <- HP. apply filter_In. split; [exact He|]. destruct (in_dec Nat.eq_dec e (map fst (snd d))); [reflexivity|contradiction].
    + intros Hn. induction HF as [|d l docs rss HE HF IH]; [reflexivity|]. cbn. rewrite IH by (intros; eapply Hn; eauto; right; auto).
      destruct HE as (es & HP & HE). assert (es = []) as ->.
      { destruct es as [|e es]; [reflexivity|exfalso].
        assert (X : In e (e :: es)) by (left; auto). eapply Permutation_in in X; [|exact HP].
        apply filter_In in X as [X1 X2]. destruct (in_dec Nat.eq_dec e (map fst (snd d))); [|discriminate].
        eapply (Hn d e); eauto. left. auto. }
      inversion HE; subst. reflexivity.
  - unfold mean_reciprocal_rank. destruct (_ =? 0); [congruence|eauto].
Qed.

Example C27_case : (forall d, In d c24_docs -> NoDup (fst d) /\ NoDup (map fst (snd d))) /\
  val (mean_reciprocal_rank isort c24_docs) = (2#3)%Q /\
  mean_reciprocal_rank isort [([1], [(2, (1#2)%Q)])] = Raise ZeroDivisionError.
Proof.
  split; [|split; vm_compute; reflexivity].
  intros d [<-|[<-|[<-|[]]]]; cbn; split; repeat constructor; cbn; intuition congruence.
Qed.

(** A row with a repeated link: deleting while scanning skips the repeat, so
    one of the two is not counted.  (Rows with repeats can be stored.) *)
Theorem C27_repeated_links_all_counted_refuted : exists argsort expt row, sorts argsort /\
  (forall e, In e expt -> In e (map fst row)) /\ NoDup (map fst row) /\
  snd (mrr_doc argsort (expt, row)) <> length expt.
Proof.
  exists isort, [1; 1], [(1, (1#2)%Q)]. split; [apply isort_sorts|]. split.
  - cbn. intuition.
  - split; [repeat constructor; cbn; intuition|]. vm_compute. discriminate.
Qed.

(** ** C28 *)
Definition count_of (t : dict tally) (g : group) : nat :=
  match lookup g t with Some x => tcount x | None => 0 end.
Definition recall_of (t : dict tally) (i : nat) (g : group) : Q :=
  match lookup g t with Some x => nth i (trec x) 0%Q | None => 0%Q end.

(** Counts add up. *)
Theorem C28_counts_add_up : forall argsort at_ groups docs t, sorts argsort ->
  mean_prec_rec_at argsort at_ groups docs = Ok t ->
  count_of t AllGroups = length (with_links docs) /\
  count_of t AllGroups = sumN (map (count_of t) (proper_groups (all_groups groups))) /\
  forall g, In g (all_groups groups) -> g <> AllGroups ->
    exists sel, (forall d, In d sel <-> In d docs /\ fst d <> [] /\ in_group (all_groups groups) (length (fst d)) g) /\
      count_of t g = length sel /\ exists p, sel = filter p docs.
Proof.
  intros argsort at_ groups docs t Hs H. pose proof (proj1 (returns_iff argsort at_ groups docs Hs) (ex_intro _ _ H)) as HR.
  apply result_spec in H as [K R].
  assert (HC : forall g, In g (all_groups groups) -> count_of t g = length (filter (memberb (all_groups groups) g) docs)).
  { intros g Hg. destruct (R g Hg) as (x & Hx & C & _). unfold count_of. rewrite Hx. exact C. }
  pose proof (HC _ (all_groups_In_all groups)) as HA. rewrite member_all in HA.
  split; [exact HA|]. split.
  - apply qnat_inj. rewrite HA.
    assert (E : forall (f : group -> nat) l, (qnat (sumN (map f l)) == qsum (fun g => qnat (f g)) l)%Q).
    { clear. intros f l. induction l as [|a l IH]; [reflexivity|]. unfold sumN in *. cbn [map fold_right].
      rewrite qnat_plus, IH, qsum_cons. reflexivity. }
    rewrite E. transitivity (qsum (fun _ : doc => 1%Q) (with_links docs)); [rewrite qsum_const; ring|].
    rewrite <- (groups_partition (all_groups groups)).
    + apply qsum_ext. intros g Hg. apply filter_In in Hg as [Hg _]. apply (proj1 (keys_In _ _)) in Hg.
      rewrite (HC g Hg), qsum_const. ring.
    + intros d Hd Hne. apply (HR d Hd Hne).
  - intros g Hg Hna. exists (filter (memberb (all_groups groups) g) docs). split; [|split; [apply HC; exact Hg|eauto]].
    intros d. rewrite filter_In. unfold memberb. destruct (geqb_spec g AllGroups); [congruence|]. cbn [orb].
    rewrite <- find_group_ok. destruct (fst d) as [|e l]; [intuition congruence|].
    destruct (find_group (length (e :: l)) (all_groups groups)) as [h|x]; [|intuition congruence].
    destruct (geqb_spec g h) as [->|]; intuition congruence.
Qed.

(** So do the recall totals. *)
Theorem C28_recall_totals_add_up : forall argsort at_ groups docs t i m, sorts argsort ->
  mean_prec_rec_at argsort at_ groups docs = Ok t -> nth_error (ms_of at_) i = Some m ->
  (recall_of t i AllGroups * qnat (count_of t AllGroups) ==
   qsum (fun g => recall_of t i g * qnat (count_of t g)) (proper_groups (all_groups groups)))%Q.
Proof.
  intros argsort at_ groups docs t i m Hs H Hm.
  pose proof (proj1 (returns_iff argsort at_ groups docs Hs) (ex_intro _ _ H)) as HR.
  apply result_spec in H as [K R].
  assert (HC : forall g, In g (all_groups groups) -> (recall_of t i g * qnat (count_of t g) ==
      qsum (doc_rec argsort m) (filter (memberb (all_groups groups) g) docs))%Q).
  { intros g Hg. destruct (R g Hg) as (x & Hx & C & _ & _ & V). unfold count_of, recall_of. rewrite Hx. cbv zeta in *.
    destruct (V i m Hm) as [_ P]. rewrite P, C. set (sel := filter _ docs). destruct sel as [|d l] eqn:E.
    - rewrite qsum_nil. cbn [length]. rewrite qnat_0. ring.
    - rewrite Nat.max_r by (cbn; lia). assert (0 < qnat (length (d :: l)))%Q by (apply qnat_pos; cbn; lia). field. lra. }
  rewrite (HC _ (all_groups_In_all groups)), member_all.
  rewrite <- (groups_partition (all_groups groups)).
  - apply qsum_ext. intros g Hg. apply filter_In in Hg as [Hg _]. apply (proj1 (keys_In _ _)) in Hg. rewrite (HC g Hg). reflexivity.
  - intros d Hd Hne. apply (HR d Hd Hne).
Qed.

Example C28_case : exists t, mean_prec_rec_at isort (Some [1]) (Some [(0, 1)%Z; (2, 9)%Z]) c24_docs = Ok t /\
  map (count_of t) [AllGroups; (0, 1)%Z; (2, 9)%Z] = [2; 1; 1] /\
  proper_groups (all_groups (Some [(0, 1)%Z; (2, 9)%Z])) = [(0, 1)%Z; (2, 9)%Z] /\
  Qred (recall_of t 0 AllGroups) = 1%Q.
Proof. eexists. repeat (split; [vm_compute; reflexivity|]). vm_compute. reflexivity. Qed.

(** ** C29 *)

(** Folding over any folds: counts are summed and the means are the means
    weighted by documents. *)
Theorem C29_combined_is_weighted_mean : forall gs L rs r, NoDup gs -> rs <> [] -> Forall (shaped gs L) rs ->
  combine_folds rs = Ok (Some r) ->
  forall g, In g gs ->
    cnt g r = total g rs /\
    forall i, i < L -> 0 < total g rs ->
      (avg g i r == qsum (fun x => avg g i x * qnat (cnt g x)) rs / qnat (total g rs))%Q.
Proof.
  intros gs L rs r Ngs Hne HF H g Hg. destruct rs as [|o rs]; [congruence|]. inversion HF; subst.
  unfold combine_folds in H. cbn [foldM combine_map bind] in H.
  destruct (combine_from gs L Ngs rs o r ltac:(assumption) ltac:(assumption) H) as [_ R].
  destruct (R g Hg) as [C V]. split; [exact C|]. intros i Hi Hpos. rewrite <- (V i Hi), C.
  assert (0 < qnat (total g (o :: rs)))%Q by (apply qnat_pos; exact Hpos). field. lra.
Qed.

(** The order of the folds does not matter for the outcome. *)
Theorem C29_order_of_folds_irrelevant : forall gs L rs rs' r r', NoDup gs -> rs <> [] ->
  Forall (shaped gs L) rs -> Permutation rs rs' ->
  combine_folds rs = Ok (Some r) -> combine_folds rs' = Ok (Some r') ->
  forall g i, In g gs -> i < L -> 0 < total g rs -> cnt g r = cnt g r' /\ (avg g i r == avg g i r')%Q.
Proof.
  intros gs L rs rs' r r' Ngs Hne HF HP H H' g i Hg Hi Hpos.
  assert (HF' : Forall (shaped gs L) rs') by (eapply Permutation_Forall; eauto).
  assert (Hne' : rs' <> []) by (intros ->; apply Permutation_sym, Permutation_nil in HP; congruence).
  assert (HT : total g rs = total g rs').
  { unfold total. clear - HP. induction HP; cbn; unfold sumN in *; cbn; lia. }
  destruct (C29_combined_is_weighted_mean gs L rs r Ngs Hne HF H g Hg) as [C V].
  destruct (C29_combined_is_weighted_mean gs L rs' r' Ngs Hne' HF' H' g Hg) as [C' V'].
  split; [congruence|]. rewrite (V i Hi Hpos), (V' i Hi) by lia. rewrite HT, (qsum_perm _ _ _ HP). reflexivity.
Qed.

(** When it fails: some group is empty in both of the first two folds. *)
Theorem C29_fails_iff_first_two_empty : forall gs L o n rs, NoDup gs -> 0 < L ->
  Forall (shaped gs L) (o :: n :: rs) ->
  (exists r, combine_folds (o :: n :: rs) = Ok (Some r)) <-> (forall g, In g gs -> 0 < cnt g o + cnt g n).
Proof.
  intros gs L o n rs Ngs HL HF. inversion HF; subst. unfold combine_folds.
  change (foldM (fun old new => do r <- combine_map old new; Ok (Some r)) None (o :: n :: rs))
    with (foldM (fun old new => do r <- combine_map old new; Ok (Some r)) (Some o) (n :: rs)).
  rewrite (combine_from_total gs L Ngs (n :: rs) o) by assumption. split; [intros [|]; [lia|assumption]|auto].
Qed.

(** So although the value does not depend on the order, whether there is one does. *)
Theorem C29_success_independent_of_order_refuted : exists a b c,
  (exists r, combine_folds [a; b; c] = Ok (Some r)) /\ Permutation [a; b; c] [b; c; a] /\
  combine_folds [b; c; a] = Raise ZeroDivisionError.
Proof.
  exists ([((1, 2)%Z, [1%Q])], [((1, 2)%Z, 3)]), ([((1, 2)%Z, [0%Q])], [((1, 2)%Z, 0)]), ([((1, 2)%Z, [0%Q])], [((1, 2)%Z, 0)]).
  split; [eexists; vm_compute; reflexivity|]. split; [|vm_compute; reflexivity].
  apply (Permutation_cons_append [_; _]).
Qed.

(** Evaluating parts and combining equals evaluating everything at once. *)
Definition recalls (t : dict tally) : avgs * counts :=
  (map (fun '(g, x) => (g, trec x)) t, map (fun '(g, x) => (g, tcount x)) t).

Theorem C29_parts_combine_to_whole : forall argsort at_ groups (parts : list (list doc)) ts whole r,
  parts <> [] ->
  Forall2 (fun docs t => mean_prec_rec_at argsort at_ groups docs = Ok t) parts ts ->
  mean_prec_rec_at argsort at_ groups (concat parts) = Ok whole ->
  combine_folds (map recalls ts) = Ok (Some r) ->
  forall g i, In g (all_groups groups) -> i < length (ms_of at_) -> 0 < count_of whole g ->
    cnt g r = count_of whole g /\ (avg g i r == recall_of whole i g)%Q.
Proof.
  intros argsort at_ groups parts ts whole r Hne HF HW HR g i Hg Hi Hpos.
  set (gs := all_groups groups) in *. set (L := length (ms_of at_)) in *.
  assert (Hts : ts <> []) by (inversion HF; subst; congruence).
  assert (HL : forall t, recall_of t i g = avg g i (recalls t) /\ count_of t g = cnt g (recalls t)).
  { intros t. unfold recall_of, count_of, avg, cnt, recalls. cbn [fst snd].
    rewrite (lookup_map (fun _ => trec)), (lookup_map (fun _ => tcount)). destruct (lookup g t); split; reflexivity. }
  assert (HS : Forall (shaped (keys gs) L) (map recalls ts)).
  { clear - HF. induction HF as [|d t ds ts E HF IH]; [constructor|]. cbn. constructor; [|exact IH].
    apply result_spec in E as [K R]. unfold shaped, recalls. cbn [fst snd]. rewrite !map_map.
    assert (forall A (f : tally -> A), map (fun x => fst (let '(g, y) := x in (g, f y))) t = map fst t) as X.
    { intros A f. apply map_ext. intros [a b]. reflexivity. }
    split; [rewrite (X _ trec); exact K|]. split; [rewrite (X _ tcount); exact K|].
    intros g l. rewrite (lookup_map (fun _ => trec)). destruct (lookup g t) as [x|] eqn:E; [|discriminate].
    cbn. intros [= <-]. assert (Hg : In g gs) by (apply keys_In; unfold gs; rewrite <- K; apply lookup_key; eauto).
    destruct (R g Hg) as (x' & Hx' & _ & _ & L2 & _). assert (x' = x) as -> by congruence. exact L2. }
  assert (exists m, nth_error (ms_of at_) i = Some m) as (m & Hm).
  { destruct (nth_error (ms_of at_) i) eqn:E; [eauto|]. apply nth_error_None in E. unfold L in Hi. lia. }
  assert (HT : forall docs t, mean_prec_rec_at argsort at_ groups docs = Ok t ->
     count_of t g = length (filter (memberb gs g) docs) /\
     (recall_of t i g * qnat (count_of t g) == qsum (doc_rec argsort m) (filter (memberb gs g) docs))%Q).
  { intros docs t E. apply result_spec in E as [K R]. destruct (R g Hg) as (x & Hx & C & _ & _ & V).
    unfold count_of, recall_of. rewrite Hx. cbv zeta in *. split; [exact C|].
    destruct (V i m Hm) as [_ P]. rewrite P, C. fold gs. set (sel := filter _ docs). destruct sel as [|d l] eqn:E.
    - rewrite qsum_nil. cbn [length]. rewrite qnat_0. ring.
    - rewrite Nat.max_r by (cbn; lia). assert (0 < qnat (length (d :: l)))%Q by (apply qnat_pos; cbn; lia). field. lra. }
  assert (HSum : total g (map recalls ts) = length (filter (memberb gs g) (concat parts)) /\
    (qsum (fun x => avg g i x * qnat (cnt g x)) (map recalls ts) == qsum (doc_rec argsort m) (filter (memberb gs g) (concat parts)))%Q).
  { clear - HF HT HL. induction HF as [|d t ds ts E HF [IH1 IH2]]; [split; reflexivity|].
    destruct (HT d t E) as [T1 T2]. destruct (HL t) as [L1 L2]. cbn [map concat]. rewrite filter_app, app_length, qsum_app, qsum_cons.
    split.
    - unfold total in *. cbn [map]. unfold sumN in *. cbn [fold_right]. rewrite IH1, <- L2, T1. reflexivity.
    - rewrite IH2, <- L1, <- L2, T2. reflexivity. }
  destruct HSum as [S1 S2]. destruct (HT _ _ HW) as [W1 W2].
  destruct (C29_combined_is_weighted_mean (keys gs) L (map recalls ts) r (keys_NoDup gs)) with (g := g) as [C V]; auto.
  - destruct ts; [congruence|discriminate].
  - apply keys_In. exact Hg.
  - split; [congruence|]. rewrite (V i Hi) by (rewrite S1, <- W1; exact Hpos). rewrite S2, <- W2, S1, <- W1.
    assert (0 < qnat (count_of whole g))%Q by (apply qnat_pos; exact Hpos). field. lra.
Qed.

Example C29_case :
  let f1 := ([((1, 2)%Z, [1%Q; (1#2)%Q])], [((1, 2)%Z, 3)]) in
  let f2 := ([((1, 2)%Z, [0%Q; (1#4)%Q])], [((1, 2)%Z, 1)]) in
  Forall (shaped [(1, 2)%Z] 2) [f1; f2] /\
  exists r, combine_folds [f1; f2] = Ok (Some r) /\ cnt (1, 2)%Z r = 4 /\ Qred (avg (1, 2)%Z 0 r) = (3#4)%Q /\
    Qred (avg (1, 2)%Z 1 r) = (7#16)%Q.
Proof.
  cbv zeta. split.
  - repeat constructor; cbn; intros g l; destruct (geqb g (1, 2)%Z); intros [=]; subst; reflexivity.
  - eexists. repeat (split; [vm_compute; reflexivity|]). vm_compute. reflexivity.
Qed.

Example C29_parts_case : exists t1 t2 w r,
  let gs := Some [(0, 9)%Z] in
  mean_prec_rec_at isort (Some [1]) gs [([3], [(3, (1#2)%Q)]); ([3], [(2, (1#2)%Q)])] = Ok t1 /\
  mean_prec_rec_at isort (Some [1]) gs [([3], [(3, (1#2)%Q)])] = Ok t2 /\
  mean_prec_rec_at isort (Some [1]) gs [([3], [(3, (1#2)%Q)]); ([3], [(2, (1#2)%Q)]); ([3], [(3, (1#2)%Q)])] = Ok w /\
  combine_folds (map recalls [t1; t2]) = Ok (Some r) /\ Qred (avg AllGroups 0 r) = (2#3)%Q /\ count_of w AllGroups = 3.
Proof. eexists _, _, _, _. cbv zeta. repeat (split; [vm_compute; reflexivity|]). vm_compute. reflexivity. Qed.

Print Assumptions C23_map_between_zero_and_one.
Print Assumptions C23_map_returns_iff.
Print Assumptions C23_map_of_perfect_ranking.
Print Assumptions C23_absent_links_score_zero_refuted.
Print Assumptions C24_precision_at_most_one_refuted.
Print Assumptions C24_precision_bound.
Print Assumptions C24_precision_at_most_one_few_links.
Print Assumptions C25_recall_between_zero_and_one.
Print Assumptions C25_recall_grows_with_m.
Print Assumptions C25_recall_value.
Print Assumptions C26_default_groups_work_refuted.
Print Assumptions C26_default_groups_fail_for_any_link.
Print Assumptions C26_argument_untouched_refuted.
Print Assumptions C26_argument_characterised.
Print Assumptions C26_returns_iff_groups_cover.
Print Assumptions C27_mrr_is_mean_reciprocal_rank.
Print Assumptions C27_mrr_fails_iff_nothing_found.
Print Assumptions C27_repeated_links_all_counted_refuted.
Print Assumptions C28_counts_add_up.
Print Assumptions C28_recall_totals_add_up.
Print Assumptions C29_combined_is_weighted_mean.
Print Assumptions C29_order_of_folds_irrelevant.
Print Assumptions C29_fails_iff_first_two_empty.
Print Assumptions C29_success_independent_of_order_refuted.
Print Assumptions C29_parts_combine_to_whole.
