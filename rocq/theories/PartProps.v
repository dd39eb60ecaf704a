(** * C14-C22, C68: document completion, link splits, feature splits, columns. *)
From Coq Require Import List ZArith QArith Qabs Arith Bool Lia Lqa Permutation Sorted.
From Coq Require String.
From Verif Require Import Base SparseModel SparseProofs SplitModel DatasetModel DatasetSpec
  DatasetProofs PruneProofs DatasetMore PartModel PartSpec PartProofs PartLinks PartCols.
Import ListNotations.
Open Scope nat_scope.

Definition pex_words : smat := mkS [[(0, 4%Z); (2, 1%Z)]; [(1, 3%Z)]] 3.
Definition pex_ds : dataset := mkDS pex_words None None NoDict NoCats [0; 1].
Definition pex_jitter (n : nat) : Q := nth n [(-1 # 2)%Q; (1 # 4)%Q; (1 # 2)%Q] 0%Q.

(** ** C14 *)

(** Without features the two halves add up to the original for every document
    and word, share everything but the words with the original, and each
    stored count is split at the integer nearest to its jittered share. *)
Theorem C14_completion_conserves_tokens : forall mu jitter p ds a b,
  feats ds = None ->
  doc_completion_split mu jitter p ds = Ok (a, b) ->
  (forall d w, (mget (words a) d w + mget (words b) d w = mget (words ds) d w)%Z) /\
  nrows (words a) = nrows (words ds) /\ nrows (words b) = nrows (words ds) /\
  scols (words a) = scols (words ds) /\ scols (words b) = scols (words ds) /\
  same_side_data a ds /\ same_side_data b ds /\
  (forall d k w v, entry (words ds) d k = Some (w, v) ->
     exists e, entry (words a) d k = Some (w, e) /\ entry (words b) d k = Some (w, (v - e)%Z) /\
       nearest_even ((inject_Z v + jitter (entry_number (words ds) d k)) * p)%Q e).
Proof.
  intros mu jit p ds a b Hf H. destruct (completion_ok mu jit p ds a b Hf H) as (-> & -> & Ha & Hb).
  pose proof (complete_rows_len p jit (srows (words ds)) 0) as [L1 L2].
  split.
  { intros d w. pose proof (complete_rows_mget p jit (srows (words ds)) (scols (words ds)) d w) as G.
    unfold est_words, evl_words. rewrite G. reflexivity. }
  unfold est_words, evl_words, nrows. cbn [srows scols].
  split; [exact L1|]. split; [exact L2|]. split; [reflexivity|]. split; [reflexivity|].
  split; [exact Ha|]. split; [exact Hb|].
  intros d k w v He. unfold entry in *. cbn [srows].
  destruct (nth_error (srows (words ds)) d) as [r|] eqn:Er; [|discriminate].
  destruct (complete_rows_nth p jit (srows (words ds)) 0 d r Er) as [-> ->].
  pose proof (complete_row_nth p jit r (0 + length (concat (firstn d (srows (words ds))))) k w v He) as G.
  destruct (complete_row p jit _ r) as [x y]. cbn [fst snd]. cbv zeta in G. destruct G as [G1 G2].
  eexists. split; [exact G1|]. split; [exact G2|]. unfold entry_number.
  apply around_spec.
Qed.

(** Without a word threshold the split of a consistent dataset always returns,
    and with features it returns the dataset itself twice. *)
Theorem C14_completion_returns : forall mu jitter p ds,
  consistent ds -> (mu <= 0)%Q ->
  exists a b, doc_completion_split mu jitter p ds = Ok (a, b) /\
              (feats ds <> None -> a = ds /\ b = ds).
Proof.
  intros mu jit p ds Hc Hmu. destruct (feats ds) as [f|] eqn:E.
  - exists ds, ds. unfold doc_completion_split. rewrite E. auto.
  - destruct (completion_runs mu jit p ds E Hc (or_introl Hmu)) as (a & b & H).
    exists a, b. split; [exact H|]. intros X. congruence.
Qed.

Example C14_example : feats pex_ds = None /\ consistent pex_ds /\
  exists a b, doc_completion_split 0 pex_jitter (1 # 2) pex_ds = Ok (a, b) /\
    srows (words a) = [[(0, 2%Z); (2, 1%Z)]; [(1, 2%Z)]] /\
    srows (words b) = [[(0, 2%Z); (2, 0%Z)]; [(1, 1%Z)]].
Proof.
  split; [reflexivity|]. split.
  - unfold consistent. cbn. auto with arith.
  - eexists. eexists. split; [vm_compute; reflexivity|]. split; reflexivity.
Qed.

(** ** C15 *)

(** With nine tenths in the estimation half, a count of one whose jitter is one
    (1.7 standard deviations) yields an evaluation count of minus one. *)
Theorem C15_counts_are_nonnegative_refuted : exists jitter a b,
  feats pex_ds = None /\
  (forall d w, 0 <= mget (words pex_ds) d w)%Z /\
  doc_completion_split 0 jitter (9 # 10) pex_ds = Ok (a, b) /\
  (mget (words b) 0 2 < 0)%Z.
Proof.
  exists (fun _ => 1%Q). eexists. eexists. split; [reflexivity|]. split.
  - intros d w. unfold mget. destruct d as [|[|d]]; cbn; [| |destruct d; cbn; lia].
    + unfold sget. cbn. destruct w as [|[|[|w]]]; cbn; lia.
    + unfold sget. cbn. destruct w as [|[|[|w]]]; cbn; lia.
  - split; [vm_compute; reflexivity|]. vm_compute. reflexivity.
Qed.

(** Exactly when both parts of a stored count are non-negative: the jittered
    share must lie between minus a half and the count plus a half. *)
Theorem C15_counts_nonnegative_iff : forall mu jitter p ds a b d k w v,
  feats ds = None ->
  doc_completion_split mu jitter p ds = Ok (a, b) ->
  entry (words ds) d k = Some (w, v) ->
  let share := ((inject_Z v + jitter (entry_number (words ds) d k)) * p)%Q in
  exists e e', entry (words a) d k = Some (w, e) /\ entry (words b) d k = Some (w, e') /\
    ((0 <= e)%Z <-> (-(1 # 2) <= share)%Q) /\
    ((0 <= e')%Z <-> (share < inject_Z v + (1 # 2) \/
                      (share == inject_Z v + (1 # 2) /\ Z.even v = true))%Q).
Proof.
  intros mu jit p ds a b d k w v Hf H He share.
  destruct (completion_ok mu jit p ds a b Hf H) as (-> & -> & _ & _).
  unfold entry in *. cbn [srows est_words evl_words].
  destruct (nth_error (srows (words ds)) d) as [r|] eqn:Er; [|discriminate].
  destruct (complete_rows_nth p jit (srows (words ds)) 0 d r Er) as [-> ->].
  pose proof (complete_row_nth p jit r (0 + length (concat (firstn d (srows (words ds))))) k w v He) as G.
  destruct (complete_row p jit _ r) as [x y]. cbn [fst snd]. cbv zeta in G. destruct G as [G1 G2].
  exists (around share), (v - around share)%Z. split; [exact G1|]. split; [exact G2|].
  split; [apply around_nonneg|]. rewrite <- around_le. lia.
Qed.

(** In particular jitter of at most the count itself is harmless for an even
    split. *)
Theorem C15_counts_nonnegative_small_jitter : forall mu jitter ds a b d k w v,
  feats ds = None ->
  doc_completion_split mu jitter (1 # 2) ds = Ok (a, b) ->
  entry (words ds) d k = Some (w, v) ->
  (Qabs (jitter (entry_number (words ds) d k)) <= inject_Z v)%Q ->
  exists e e', entry (words a) d k = Some (w, e) /\ entry (words b) d k = Some (w, e') /\
    (0 <= e)%Z /\ (0 <= e')%Z.
Proof.
  intros mu jit ds a b d k w v Hf H He Hj.
  destruct (C15_counts_nonnegative_iff mu jit (1#2) ds a b d k w v Hf H He) as (e & e' & H1 & H2 & H3 & H4).
  apply Qabs_Qle_condition in Hj.
  exists e, e'. split; [exact H1|]. split; [exact H2|]. split.
  - apply H3. lra.
  - apply H4. left. lra.
Qed.

Example C15_example : entry (words pex_ds) 0 0 = Some (0, 4%Z) /\
  (Qabs (pex_jitter (entry_number (words pex_ds) 0 0)) <= inject_Z 4)%Q.
Proof. split; [reflexivity|]. vm_compute. discriminate. Qed.

(** ** C16 *)

(** If a single document falls short in either half, the call raises. *)
Theorem C16_threshold_removing_documents_raises : forall mu jitter p ds a b d,
  feats ds = None -> consistent ds -> (0 < mu)%Q ->
  doc_completion_split 0 jitter p ds = Ok (a, b) ->
  d < nrows (words ds) ->
  ~ (enough_in (words a) mu d /\ enough_in (words b) mu d) ->
  doc_completion_split mu jitter p ds = Raise TypeError.
Proof.
  intros mu jit p ds a b d Hf Hc Hmu H Hd Hn.
  destruct (completion_ok 0 jit p ds a b Hf H) as (Ea & Eb & _ & _). rewrite Ea, Eb in Hn.
  eapply completion_raises; eauto.
Qed.

Theorem C16_filter_returns_both_halves_refuted : exists ds jitter mu,
  feats ds = None /\ consistent ds /\ (0 < mu)%Q /\
  (exists a b, doc_completion_split 0 jitter (1 # 2) ds = Ok (a, b) /\
               enough_in (words a) mu 0 /\ enough_in (words b) mu 0) /\
  doc_completion_split mu jitter (1 # 2) ds = Raise TypeError.
Proof.
  exists (mkDS (mkS [[(0, 4%Z); (1, 4%Z)]; [(1, 2%Z)]] 2) None None NoDict NoCats [0; 1]), (fun _ => 0%Q), 2%Q.
  split; [reflexivity|]. split; [unfold consistent; cbn; auto with arith|]. split; [lra|]. split.
  - eexists. eexists. split; [vm_compute; reflexivity|]. split; eexists; (split; [reflexivity|]); vm_compute; discriminate.
  - vm_compute. reflexivity.
Qed.

(** If no document falls short, the filter changes nothing. *)
Theorem C16_threshold_met_by_all_returns : forall mu jitter p ds a b,
  feats ds = None -> consistent ds ->
  doc_completion_split 0 jitter p ds = Ok (a, b) ->
  (forall d, d < nrows (words ds) -> enough_in (words a) mu d /\ enough_in (words b) mu d) ->
  doc_completion_split mu jitter p ds = Ok (a, b).
Proof.
  intros mu jit p ds a b Hf Hc H Hall.
  destruct (completion_ok 0 jit p ds a b Hf H) as (Ea & Eb & _ & _).
  destruct (completion_runs mu jit p ds Hf Hc) as (a' & b' & H').
  { right. rewrite <- Ea, <- Eb. exact Hall. }
  rewrite H'. unfold doc_completion_split in H, H'. rewrite Hf in H, H'.
  destruct (complete_rows_from p jit 0 (srows (words ds))) as [tr qu].
  destruct (_ && _) in H; [discriminate|]. destruct (_ && _) in H'; [discriminate|]. congruence.
Qed.

Example C16_example : exists a b, doc_completion_split 0 pex_jitter (1 # 2) pex_ds = Ok (a, b) /\
  (forall d, d < nrows (words pex_ds) -> enough_in (words a) 1 d /\ enough_in (words b) 1 d).
Proof.
  eexists. eexists. split; [vm_compute; reflexivity|].
  intros [|[|d]] Hd; [| |vm_compute in Hd; lia]; split; eexists; (split; [reflexivity|]); vm_compute; discriminate.
Qed.

(** ** C17 *)

(** Documents with at least the minimum number of links: the stored links are
    divided between the two halves, so the matrices add up there, and without
    repeated columns no link is in both. The list returned names exactly these
    documents. *)
Theorem C17_long_rows_are_divided : forall X fold folds min_link L R docs,
  csr_wf X -> fold < folds ->
  folded_link_split false (Some X) fold folds min_link = Ok (L, R, docs) ->
  csr_wf L /\ csr_wf R /\ crows L = crows X /\ crows R = crows X /\ ccols L = ccols X /\ ccols R = ccols X /\
  (forall d, In d docs <-> d < crows X /\ min_link <= length (csr_row X d)) /\
  forall d, In d docs ->
    Permutation (csr_row L d ++ csr_row R d) (csr_row X d) /\
    (forall j, mget (csr_smat L) d j + mget (csr_smat R) d j = mget (csr_smat X) d j)%Z /\
    (NoDup (map fst (csr_row X d)) ->
     forall j, mget (csr_smat L) d j = 0%Z \/ mget (csr_smat R) d j = 0%Z).
Proof.
  intros X f k m L R docs HX Hf H. injection H as H.
  destruct (folded_split_rows X f k m L R docs HX Hf H) as (W1 & W2 & N1 & N2 & C1 & C2 & Hd & Hrows).
  assert (Hdocs : forall d, In d docs <-> d < crows X /\ m <= length (csr_row X d)).
  { intros d. rewrite Hd, filter_In, in_seq. unfold long_row. rewrite Nat.leb_le.
    split; intros [Hx Hy]; (split; [lia|]); rewrite csr_row_length in *; auto; lia. }
  split; [exact W1|]. split; [exact W2|]. split; [exact N1|]. split; [exact N2|].
  split; [exact C1|]. split; [exact C2|]. split; [exact Hdocs|].
  intros d Hin. apply Hdocs in Hin as [Hi Hlen]. destruct (Hrows d Hi) as [EL ER].
  assert (HP : Permutation (csr_row L d ++ csr_row R d) (csr_row X d)).
  { rewrite EL, ER. apply train_query_perm; auto. }
  split; [exact HP|]. split.
  - intros j. rewrite !mget_csr, N1, N2. rewrite (proj2 (Nat.ltb_lt _ _) Hi).
    rewrite <- sget_app. apply sget_perm. exact HP.
  - intros Hnd j. rewrite !mget_csr, N1, N2. rewrite (proj2 (Nat.ltb_lt _ _) Hi).
    assert (Hnd' : NoDup (map fst (csr_row L d) ++ map fst (csr_row R d))).
    { rewrite <- map_app. eapply Permutation_NoDup; [apply Permutation_map, Permutation_sym, HP|exact Hnd]. }
    destruct (in_dec Nat.eq_dec j (map fst (csr_row L d))) as [I|I].
    + right. apply sget_absent. intros I2. eapply NoDup_app_disjoint; eauto.
    + left. apply sget_absent. exact I.
Qed.

(** All other documents have their links copied into both halves. *)
Theorem C17_short_rows_are_copied : forall X fold folds min_link L R docs d,
  csr_wf X -> fold < folds ->
  folded_link_split false (Some X) fold folds min_link = Ok (L, R, docs) ->
  d < crows X -> length (csr_row X d) < min_link ->
  csr_row L d = csr_row X d /\ csr_row R d = csr_row X d.
Proof.
  intros X f k m L R docs d HX Hf H Hi Hlen. injection H as H.
  destruct (folded_split_rows X f k m L R docs HX Hf H) as (_ & _ & _ & _ & _ & _ & _ & Hrows).
  destruct (Hrows d Hi) as [-> ->]. unfold train_row, query_row.
  rewrite (proj2 (Nat.ltb_lt _ _) Hlen). auto.
Qed.

Definition pex_csr : csr := mkCSR [0; 5; 6] [0; 1; 2; 3; 4; 2] [1; 1; 2; 1; 1; 1]%Z 5.

Theorem C17_halves_add_up_refuted : exists X L R docs,
  csr_wf X /\ folded_link_split false (Some X) 1 2 2 = Ok (L, R, docs) /\
  exists d j, (mget (csr_smat L) d j + mget (csr_smat R) d j <> mget (csr_smat X) d j)%Z.
Proof.
  exists pex_csr. eexists. eexists. eexists. split.
  { unfold csr_wf, pex_csr. cbn. split; [reflexivity|]. split.
    - intros [|[|i]] Hi; cbn; lia.
    - split; [reflexivity|]. split; [reflexivity|]. repeat constructor. }
  split; [vm_compute; reflexivity|]. exists 1, 2. vm_compute. discriminate.
Qed.

Example C17_example : exists L R, folded_link_split false (Some pex_csr) 1 2 2 = Ok (L, R, [0]) /\
  csr_row L 0 = [(0, 1%Z); (1, 1%Z); (4, 1%Z)] /\ csr_row R 0 = [(2, 2%Z); (3, 1%Z)].
Proof. eexists. eexists. split; [vm_compute; reflexivity|]. split; reflexivity. Qed.

(** ** C18 *)

(** Which fold queries a link: the q-th link of a document with n links is in
    the query half of fold q div (n div folds), if that is a fold, and in no
    other. *)
Theorem C18_fold_of_each_link : forall X fold folds min_link L R docs d q e,
  csr_wf X -> fold < folds ->
  folded_link_split false (Some X) fold folds min_link = Ok (L, R, docs) ->
  In d docs -> NoDup (csr_row X d) -> nth_error (csr_row X d) q = Some e ->
  (In e (csr_row R d) <->
   0 < length (csr_row X d) / folds /\ q / (length (csr_row X d) / folds) = fold).
Proof.
  intros X f k m L R docs d q e HX Hf H Hin Hnd He.
  pose proof (C17_long_rows_are_divided X f k m L R docs HX Hf H) as (_ & _ & _ & _ & _ & _ & Hdocs & _).
  apply Hdocs in Hin as [Hi Hlen]. injection H as H.
  destruct (folded_split_rows X f k m L R docs HX Hf H) as (_ & _ & _ & _ & _ & _ & _ & Hrows).
  destruct (Hrows d Hi) as [_ ->]. apply query_row_In; auto.
Qed.

(** A document whose number of links is a multiple of the number of folds has
    every link queried by exactly one fold. *)
Theorem C18_each_link_queried_once_divisible : forall X folds min_link d q e,
  csr_wf X -> 0 < folds -> d < crows X -> min_link <= length (csr_row X d) ->
  Nat.divide folds (length (csr_row X d)) -> NoDup (csr_row X d) -> nth_error (csr_row X d) q = Some e ->
  exists fold, fold < folds /\
    forall f, f < folds ->
      forall L R docs, folded_link_split false (Some X) f folds min_link = Ok (L, R, docs) ->
        (In e (csr_row R d) <-> f = fold).
Proof.
  intros X k m d q e HX Hk Hi Hlen [n Hn] Hnd He.
  assert (Hq : q < length (csr_row X d)) by (apply nth_error_Some; congruence).
  assert (En : length (csr_row X d) / k = n) by (rewrite Hn; apply Nat.div_mul; lia).
  assert (Hn0 : 0 < n) by nia.
  exists (q / n). split; [apply Nat.div_lt_upper_bound; nia|].
  intros f Hf L R docs H.
  pose proof (C17_long_rows_are_divided X f k m L R docs HX Hf H) as (_ & _ & _ & _ & _ & _ & Hdocs & _).
  rewrite (C18_fold_of_each_link X f k m L R docs d q e HX Hf H); auto.
  - rewrite En. intuition.
  - apply Hdocs. auto.
Qed.

(** Otherwise the last links are queried by no fold at all. *)
Theorem C18_leftover_links_never_queried : forall X folds min_link d q e,
  csr_wf X -> 0 < folds -> d < crows X -> min_link <= length (csr_row X d) ->
  NoDup (csr_row X d) -> nth_error (csr_row X d) q = Some e ->
  length (csr_row X d) / folds * folds <= q ->
  forall f, f < folds -> forall L R docs,
    folded_link_split false (Some X) f folds min_link = Ok (L, R, docs) -> ~ In e (csr_row R d).
Proof.
  intros X k m d q e HX Hk Hi Hlen Hnd He Hq f Hf L R docs H.
  pose proof (C17_long_rows_are_divided X f k m L R docs HX Hf H) as (_ & _ & _ & _ & _ & _ & Hdocs & _).
  rewrite (C18_fold_of_each_link X f k m L R docs d q e HX Hf H); auto.
  - intros [Hs Hx]. set (s := length (csr_row X d) / k) in *.
    assert (k <= q / s); [|lia]. apply Nat.div_le_lower_bound; lia.
  - apply Hdocs. auto.
Qed.

Theorem C18_each_link_queried_once_refuted : exists X d e folds,
  csr_wf X /\ 2 <= length (csr_row X d) /\ 0 < folds /\ In e (csr_row X d) /\ NoDup (csr_row X d) /\
  forall f, f < folds -> forall L R docs,
    folded_link_split false (Some X) f folds 2 = Ok (L, R, docs) -> In d docs /\ ~ In e (csr_row R d).
Proof.
  exists pex_csr, 0, (4, 1%Z), 2.
  assert (HX : csr_wf pex_csr).
  { unfold csr_wf, pex_csr. cbn. split; [reflexivity|]. split.
    - intros [|[|i]] Hi; cbn; lia.
    - split; [reflexivity|]. split; [reflexivity|]. repeat constructor. }
  split; [exact HX|]. split; [cbn; lia|]. split; [lia|]. split; [cbn; tauto|]. split.
  { cbn. repeat constructor; cbn; intuition discriminate. }
  intros f Hf L R docs H. destruct f as [|[|f]]; [| |lia]; vm_compute in H;
    injection H as <- <- <-; cbn; intuition discriminate.
Qed.

Example C18_example : Nat.divide 5 (length (csr_row pex_csr 0)) /\ NoDup (csr_row pex_csr 0) /\
  nth_error (csr_row pex_csr 0) 3 = Some (3, 1%Z) /\
  exists L R docs, folded_link_split false (Some pex_csr) 3 5 2 = Ok (L, R, docs) /\ csr_row R 0 = [(3, 1%Z)].
Proof.
  split; [exists 1; reflexivity|]. split.
  { cbn. repeat constructor; cbn; intuition discriminate. }
  split; [reflexivity|]. eexists. eexists. eexists. split; [vm_compute; reflexivity|]. reflexivity.
Qed.

(** ** C19 *)

(** link_prediction_split never returns: the split point is a float. *)
Theorem C19_link_prediction_split_always_raises : forall symmetric shuffle X,
  link_prediction_split symmetric shuffle X
  = Raise (match X with None => AssertionError | Some _ => TypeError end).
Proof. intros [] shuffle [X|]; reflexivity. Qed.

Theorem C19_link_prediction_split_returns_refuted : exists X, swf X /\
  forall symmetric shuffle, ~ exists a b, link_prediction_split symmetric shuffle (Some X) = Ok (a, b).
Proof.
  exists (mkS [[(1, 1%Z)]; [(0, 1%Z)]] 2). split.
  - repeat constructor.
  - intros symmetric shuffle (a & b & H). rewrite C19_link_prediction_split_always_raises in H. discriminate.
Qed.

(** ** C68: rebuilding a symmetric matrix from one triangle. *)
Definition symmetric_mat (X : smat) : Prop := forall i j, mget X i j = mget X j i.

Definition lower_triangle (X : smat) : coo := filter (fun '(i, j, _) => j <=? i) (to_coo X).

Theorem C68_mirror_restores_off_diagonal : forall X i j,
  symmetric_mat X -> i <> j -> cooget (symm_csr (lower_triangle X)) i j = mget X i j.
Proof.
  intros X i j HX Hne. unfold symm_csr, lower_triangle.
  rewrite cooget_app, cooget_swap, !cooget_filter, !cooget_to_coo by reflexivity. cbv beta iota.
  destruct (Nat.leb_spec j i), (Nat.leb_spec i j); try lia. rewrite (HX j i). lia.
Qed.

(** The result is symmetric even if the input is not. *)
Theorem C68_mirror_is_symmetric : forall c i j, cooget (symm_csr c) i j = cooget (symm_csr c) j i.
Proof. intros c i j. unfold symm_csr. rewrite !cooget_app, !cooget_swap. lia. Qed.

Theorem C68_mirror_doubles_diagonal : forall X i,
  cooget (symm_csr (lower_triangle X)) i i = (2 * mget X i i)%Z.
Proof.
  intros X i. unfold symm_csr, lower_triangle.
  rewrite cooget_app, cooget_swap, !cooget_filter, !cooget_to_coo by reflexivity. cbv beta iota.
  rewrite Nat.leb_refl. lia.
Qed.

Theorem C68_mirror_restores_matrix_refuted : exists X, symmetric_mat X /\
  exists i j, cooget (symm_csr (lower_triangle X)) i j <> mget X i j.
Proof.
  exists (mkS [[(0, 1%Z)]] 1). split.
  - intros [|[|i]] [|[|j]]; unfold mget; cbn; try reflexivity; rewrite ?nth_error_nil; try reflexivity.
  - exists 0, 0. vm_compute. discriminate.
Qed.

Example C68_example : cooget (symm_csr (lower_triangle (mkS [[(1, 3%Z)]; [(0, 3%Z)]] 2))) 0 1 = 3%Z.
Proof. reflexivity. Qed.

(** ** C20 *)
Definition fval (f : fmat) (d c : nat) : Q :=
  match nth_error (frows f) d with Some r => nth c r 0%Q | None => 0%Q end.

(** What comes back, whenever something does: which documents are in which
    dataset, and that their records are complete; links are restricted to
    training documents in both. *)
Theorem C20_returned_documents : forall ds f features tr qu docs,
  feats ds = Some f ->
  split_on_feature ds features = Ok (tr, qu, docs) ->
  exists c0 rest qdocs, features = c0 :: rest /\
    (forall d, In d docs <-> d < length (frows f) /\
       (Qabs (sumQ (map (fval f d) features)) < epsilon30)%Q) /\
    (forall d, In d qdocs <-> d < length (frows f) /\ (epsilon30 < fval f d c0)%Q) /\
    NoDup docs /\ NoDup qdocs /\
    rows_from eq docs (srows (words ds)) (srows (words tr)) /\
    rows_from eq qdocs (srows (words ds)) (srows (words qu)) /\
    (exists ft fq, feats tr = Some ft /\ feats qu = Some fq /\
       rows_from eq docs (frows f) (frows ft) /\ rows_from eq qdocs (frows f) (frows fq)) /\
    rows_from eq docs (order ds) (order tr) /\ rows_from eq qdocs (order ds) (order qu) /\
    links ds <> None /\
    links_from ds docs docs tr /\ links_from ds qdocs docs qu /\
    cats tr = cats ds /\ cats qu = cats ds /\ dict tr = dict ds /\ dict qu = dict ds.
Proof.
  intros ds f features tr qu docs Hf H. unfold split_on_feature in H. rewrite Hf in H.
  destruct features as [|c0 rest]; [discriminate|].
  destruct (negb _); [discriminate|].
  set (T := where_ _ (frows f)) in H. set (U := where_ (fun r => Qlt_bool epsilon30 (nth c0 r 0%Q)) (frows f)) in H.
  apply bind_ok in H as (tw & Etw & H). apply bind_ok in H as (tf & Etf & H).
  apply bind_ok in H as (tl & Etl & H). apply bind_ok in H as (to & Eto & H).
  apply bind_ok in H as (t & Et & H).
  apply bind_ok in H as (qw & Eqw & H). apply bind_ok in H as (qf & Eqf & H).
  apply bind_ok in H as (ql & Eql & H). apply bind_ok in H as (qo & Eqo & H).
  apply bind_ok in H as (q & Eq & H). injection H as <- <- <-.
  exists c0, rest, U. split; [reflexivity|].
  assert (Qabs_qabs : forall x, (qabs x == Qabs x)%Q).
  { intros x. unfold qabs. destruct (Qle_bool 0 x) eqn:E.
    - apply Qle_bool_iff in E. rewrite Qabs_pos; [reflexivity|exact E].
    - rewrite Qabs_neg; [reflexivity|]. apply Qlt_le_weak, Qnot_le_lt. intros X.
      apply Qle_bool_iff in X. congruence. }
  assert (Qlt_iff : forall a b, Qlt_bool a b = true <-> (a < b)%Q).
  { intros a b. unfold Qlt_bool. rewrite negb_true_iff. split.
    - intros E. apply Qnot_le_lt. intros X. apply Qle_bool_iff in X. congruence.
    - intros E. destruct (Qle_bool b a) eqn:X; [|reflexivity]. apply Qle_bool_iff in X. lra. }
  assert (Hfields : forall w f l d c o ds', construct w f l d c (Some o) 0 = Ok ds' -> order ds' = o).
  { clear. intros w f l d c o ds' H. unfold construct in H. cbn [Nat.ltb Nat.leb andb] in H.
    repeat (apply bind_ok in H as ([] & _ & H)). injection H as <-. reflexivity. }
  pose proof (construct_fields _ _ _ _ _ _ _ _ Et) as (T1 & T2 & T3 & T4 & T5).
  pose proof (construct_fields _ _ _ _ _ _ _ _ Eq) as (U1 & U2 & U3 & U4 & U5).
  rewrite T1, T2, T4, T5, U1, U2, U4, U5, (Hfields _ _ _ _ _ _ _ Et), (Hfields _ _ _ _ _ _ _ Eq).
  assert (HR : forall o m m', select_rows o m = Ok m' -> rows_from eq o (srows m) (srows m')).
  { intros o m m' E. apply select_rows_ok in E as [E _]. apply select_rows_from. exact E. }
  assert (HF : forall o m m', select_frows o m = Ok m' -> rows_from eq o (frows m) (frows m')).
  { intros o m m' E. unfold select_frows in E. apply bind_ok in E as (rs & E & [= <-]).
    apply select_rows_from. exact E. }
  assert (HL : forall ro co r, two_dim (links ds) ro co = Ok r ->
     links ds <> None /\ exists l0 l, links ds = Some l0 /\ r = Some l /\
       rows_from (same_at co) ro (srows l0) (srows l) /\ scols l = length co).
  { intros ro co r E. unfold two_dim in E. destruct (links ds) as [l0|]; [|discriminate].
    split; [discriminate|]. apply bind_ok in E as (r1 & E1 & E). apply bind_ok in E as (r2 & E2 & [= <-]).
    exists l0, r2. split; [reflexivity|]. split; [reflexivity|].
    apply select_rows_ok in E1 as [E1 _]. apply select_rows_from in E1.
    apply select_cols_ok in E2 as (_ & E2 & Ec). split; [|exact Ec]. rewrite E2.
    unfold rows_from in *. clear E2 Ec. induction E1 as [|s b ro' bs (a & Ha & <-) _ IH]; cbn; constructor; auto.
    exists a. split; [exact Ha|]. intros j c Hj. rewrite sget_select_cols, Hj. reflexivity. }
  split.
  { intros d. unfold T. rewrite where_In. unfold fval. split.
    - intros (r & Hr & E). split; [apply nth_error_Some; congruence|].
      apply Qlt_iff in E. rewrite Qabs_qabs in E.
      replace (map _ (c0 :: rest)) with (map (fun c => nth c r 0%Q) (c0 :: rest)); [exact E|].
      apply map_ext. intros c. rewrite Hr. reflexivity.
    - intros [Hd E]. destruct (nth_error (frows f) d) as [r|] eqn:Hr; [|apply nth_error_None in Hr; lia].
      exists r. split; [reflexivity|]. apply Qlt_iff. rewrite Qabs_qabs. exact E. }
  split.
  { intros d. unfold U. rewrite where_In. unfold fval. split.
    - intros (r & Hr & E). split; [apply nth_error_Some; congruence|]. rewrite Hr. apply Qlt_iff. exact E.
    - intros [Hd E]. destruct (nth_error (frows f) d) as [r|] eqn:Hr; [|apply nth_error_None in Hr; lia].
      exists r. split; [reflexivity|]. apply Qlt_iff. exact E. }
  split; [apply where_NoDup|]. split; [apply where_NoDup|].
  split; [apply HR; exact Etw|]. split; [apply HR; exact Eqw|].
  split. { exists tf, qf. split; [reflexivity|]. split; [reflexivity|]. split; apply HF; assumption. }
  split; [apply select_rows_from; exact Eto|]. split; [apply select_rows_from; exact Eqo|].
  destruct (HL _ _ _ Etl) as (Hnn & l0 & l & El0 & -> & Hl).
  destruct (HL _ _ _ Eql) as (_ & l1 & l' & El1 & -> & Hl').
  split; [exact Hnn|].
  split. { unfold links_from. rewrite El0, T3. exact Hl. }
  split. { unfold links_from. rewrite El1, U3. exact Hl'. }
  repeat split; reflexivity.
Qed.

(** One feature with values that are zero or clearly positive: each document is
    in exactly one of the two datasets, by whether it has the feature. *)
Theorem C20_single_feature_separates : forall ds f c tr qu docs,
  feats ds = Some f ->
  (forall d, d < length (frows f) -> (fval f d c == 0 \/ epsilon30 < fval f d c)%Q) ->
  split_on_feature ds [c] = Ok (tr, qu, docs) ->
  exists qdocs, Permutation (docs ++ qdocs) (seq 0 (length (frows f))) /\
    (forall d, In d docs <-> d < length (frows f) /\ (fval f d c == 0)%Q) /\
    (forall d, In d qdocs <-> d < length (frows f) /\ (0 < fval f d c)%Q) /\
    rows_from eq docs (srows (words ds)) (srows (words tr)) /\
    rows_from eq qdocs (srows (words ds)) (srows (words qu)).
Proof.
  intros ds f c tr qu docs Hf Hv H.
  destruct (C20_returned_documents ds f [c] tr qu docs Hf H)
    as (c0 & rest & qdocs & [= -> <-] & Hd & Hq & Nd & Nq & R1 & R2 & _).
  assert (Heps : (0 < epsilon30)%Q) by reflexivity.
  assert (Es : forall d, (sumQ (map (fval f d) [c0]) == fval f d c0)%Q).
  { intros d. unfold sumQ. cbn [map fold_right]. apply Qplus_0_r. }
  assert (Hd' : forall d, In d docs <-> d < length (frows f) /\ (fval f d c0 == 0)%Q).
  { intros d. rewrite Hd. split; intros [Hl E]; (split; [exact Hl|]).
    - destruct (Hv d Hl) as [|X]; [assumption|]. exfalso. rewrite Es, Qabs_pos in E; lra.
    - rewrite Es, E. exact Heps. }
  assert (Hq' : forall d, In d qdocs <-> d < length (frows f) /\ (0 < fval f d c0)%Q).
  { intros d. rewrite Hq. split; intros [Hl E]; (split; [exact Hl|]); [lra|].
    destruct (Hv d Hl) as [X|]; [lra|assumption]. }
  exists qdocs. split; [|auto].
  apply NoDup_Permutation.
  - assert (GA : forall l r : list nat, NoDup l -> NoDup r -> (forall x, In x l -> In x r -> False) -> NoDup (l ++ r)).
    { clear. induction 1 as [|a l Ha Hl IH]; intros Hr Hx; [exact Hr|]. cbn. constructor.
      - rewrite in_app_iff. intros [X|X]; [auto|]. apply (Hx a); [left; auto|exact X].
      - apply IH; [exact Hr|]. intros x X Y. apply (Hx x); [right; exact X|exact Y]. }
    apply GA; auto. intros x Hx Hy. apply Hd' in Hx. apply Hq' in Hy. lra.
  - apply seq_NoDup.
  - intros x. rewrite in_app_iff, in_seq, Hd', Hq'. split; [intuition lia|].
    intros Hx. destruct (Hv x ltac:(lia)) as [E|E]; [left|right]; (split; [lia|]); lra.
Qed.

(** It returns for datasets with links and without categories in which both
    sides get a document. *)
Theorem C20_split_succeeds : forall ds f l features c0 rest d1 d2,
  features = c0 :: rest ->
  feats ds = Some f -> links ds = Some l -> cats ds = NoCats ->
  length (frows f) = nrows (words ds) -> nrows l = nrows (words ds) ->
  nrows (words ds) <= scols l -> length (order ds) = nrows (words ds) ->
  Forall (fun c => c < fcols f) features ->
  d1 < nrows (words ds) -> (Qabs (sumQ (map (fval f d1) features)) < epsilon30)%Q ->
  d2 < nrows (words ds) -> (epsilon30 < fval f d2 c0)%Q ->
  exists tr qu docs, split_on_feature ds features = Ok (tr, qu, docs).
Proof.
  intros ds f l features c0 rest d1 d2 -> Hf Hl Hc Lf Ll Lc Lo Hfe Hd1 E1 Hd2 E2.
  unfold split_on_feature. rewrite Hf, Hl, Hc.
  replace (negb _) with false.
  2:{ symmetry. apply negb_false_iff, forallb_forall. intros x Hx. rewrite Forall_forall in Hfe.
      apply Nat.ltb_lt. auto. }
  set (T := where_ _ (frows f)). set (U := where_ (fun r => Qlt_bool epsilon30 (nth c0 r 0%Q)) (frows f)).
  assert (Qlt_iff : forall a b, (a < b)%Q -> Qlt_bool a b = true).
  { intros a b E. unfold Qlt_bool. rewrite negb_true_iff.
    destruct (Qle_bool b a) eqn:X; [|reflexivity]. apply Qle_bool_iff in X. lra. }
  assert (HT : Forall (fun i => i < nrows (words ds)) T /\ In d1 T).
  { split.
    - apply Forall_forall. intros i Hi. apply where_In in Hi as (r & Hr & _). rewrite <- Lf. apply nth_error_Some. congruence.
    - apply where_In. unfold fval in E1. destruct (nth_error (frows f) d1) as [r|] eqn:Hr; [|apply nth_error_None in Hr; lia].
      exists r. split; [reflexivity|]. apply Qlt_iff. eapply Qle_lt_trans; [|exact E1].
      unfold qabs. set (s := sumQ _). destruct (Qle_bool 0 s) eqn:E; [apply Qle_Qabs|].
      rewrite <- Qabs_opp. apply Qle_Qabs. }
  assert (HU : Forall (fun i => i < nrows (words ds)) U /\ In d2 U).
  { split.
    - apply Forall_forall. intros i Hi. apply where_In in Hi as (r & Hr & _). rewrite <- Lf. apply nth_error_Some. congruence.
    - apply where_In. unfold fval in E2. destruct (nth_error (frows f) d2) as [r|] eqn:Hr; [|apply nth_error_None in Hr; lia].
      exists r. split; [reflexivity|]. apply Qlt_iff. exact E2. }
  destruct HT as [HT1 HT2], HU as [HU1 HU2].
  assert (G : forall ix, Forall (fun i => i < nrows (words ds)) ix -> ix <> [] ->
     exists w g r o, select_rows ix (words ds) = Ok w /\ select_frows ix f = Ok g /\
        two_dim (Some l) ix T = Ok (Some r) /\ select ix (order ds) = Ok o /\
        exists d, construct w (Some g) (Some r) (dict ds) NoCats (Some o) 0 = Ok d).
  { intros ix Hix Hne.
    destruct (select_total ix (srows (words ds)) Hix) as (w & Ew).
    destruct (select_total ix (frows f)) as (g & Eg); [rewrite Lf; exact Hix|].
    destruct (select_total ix (srows l)) as (r & Er); [unfold nrows in Ll; rewrite Ll; exact Hix|].
    destruct (select_total ix (order ds)) as (o & Eo); [rewrite Lo; exact Hix|].
    exists (mkS w (scols (words ds))), (mkF g (fcols f)), (mkS (map (select_cols_row T) r) (length T)), o.
    split; [unfold select_rows; rewrite Ew; reflexivity|].
    split; [unfold select_frows; rewrite Eg; reflexivity|].
    split.
    { unfold two_dim, select_rows. rewrite Er. cbn [bind]. unfold select_cols. cbn [scols].
      replace (forallb _ T) with true; [reflexivity|]. symmetry. apply forallb_forall. intros x Hx.
      rewrite Forall_forall in HT1. specialize (HT1 x Hx). apply Nat.ltb_lt. lia. }
    split; [exact Eo|].
    pose proof (select_length _ _ _ Ew). pose proof (select_length _ _ _ Eg). pose proof (select_length _ _ _ Er).
    assert (0 < length ix) by (destruct ix; [congruence|cbn; lia]).
    eexists. unfold construct. cbn [option_map cats_len opt_len_ok]. unfold nrows. cbn [srows frows].
    rewrite map_length.
    replace (0 <? length w) with true by (symmetry; apply Nat.ltb_lt; lia).
    replace (length g =? length w) with true by (symmetry; apply Nat.eqb_eq; lia).
    replace (length r =? length w) with true by (symmetry; apply Nat.eqb_eq; lia).
    cbn. reflexivity. }
  assert (T <> []) by (intros X; rewrite X in HT2; destruct HT2).
  assert (U <> []) by (intros X; rewrite X in HU2; destruct HU2).
  destruct (G T) as (w & g & r & o & -> & -> & -> & -> & d & Ed); auto.
  destruct (G U) as (w' & g' & r' & o' & -> & -> & -> & -> & d' & Ed'); auto.
  cbn [bind]. rewrite Ed. cbn [bind]. rewrite Ed'. cbn [bind]. eauto.
Qed.

Definition pex_feats : fmat := mkF [[0; 0]; [1; 0]; [0; 1]]%Q 2.
Definition pex_fds : dataset :=
  mkDS (mkS [[(0, 1%Z)]; [(0, 2%Z)]; [(0, 3%Z)]] 1) (Some pex_feats)
       (Some (mkS [[(1, 1%Z)]; [(0, 1%Z)]; [(2, 1%Z)]] 3)) NoDict NoCats [7; 8; 9].

(** A document having only the second of two features is in neither dataset. *)
Theorem C20_split_on_feature_separates_refuted : exists tr qu docs,
  split_on_feature pex_fds [0; 1] = Ok (tr, qu, docs) /\
  ~ In 9 (order tr) /\ ~ In 9 (order qu) /\ In 9 (order pex_fds).
Proof.
  eexists. eexists. eexists. split; [vm_compute; reflexivity|]. cbn. intuition discriminate.
Qed.

(** With values of opposite sign a document is in both. *)
Theorem C20_split_on_feature_disjoint_refuted : exists ds tr qu docs d,
  split_on_feature ds [0; 1] = Ok (tr, qu, docs) /\ In d (order tr) /\ In d (order qu).
Proof.
  exists (mkDS (mkS [[(0, 1%Z)]] 1) (Some (mkF [[1; -1]]%Q 2)) (Some (mkS [[]] 1)) NoDict NoCats [5]).
  eexists. eexists. eexists. exists 5. split; [vm_compute; reflexivity|]. cbn. auto.
Qed.

(** Without a link matrix the method raises. *)
Theorem C20_split_without_links_refuted : exists ds,
  feats ds <> None /\ links ds = None /\ consistent ds /\ split_on_feature ds [0] = Raise TypeError.
Proof.
  exists (mkDS (mkS [[(0, 1%Z)]; [(0, 1%Z)]] 1) (Some (mkF [[0]; [1]]%Q 1)) None NoDict NoCats [0; 1]).
  split; [discriminate|]. split; [reflexivity|]. split; [unfold consistent; cbn; auto with arith|].
  vm_compute. reflexivity.
Qed.

Example C20_example : exists tr qu, split_on_feature pex_fds [0] = Ok (tr, qu, [0; 2]) /\
  order tr = [7; 9] /\ order qu = [8] /\ links qu = Some (mkS [[(0, 1%Z)]] 2).
Proof. eexists. eexists. split; [vm_compute; reflexivity|]. auto. Qed.

(** ** C21 *)

(** For in-range columns, in any order and with repeats, both helpers return
    the same matrix: the columns not listed, in their original order. *)
Theorem C21_column_dropping_agrees : forall M drop,
  swf M -> Forall (fun c => c < scols M) drop ->
  exists A keep, dropcols_fancy M drop = Ok A /\ dropcols_coo M drop = Ok A /\
    StronglySorted lt keep /\ (forall c, In c keep <-> c < scols M /\ ~ In c drop) /\
    nrows A = nrows M /\ scols A = length keep /\
    forall i j c, nth_error keep j = Some c -> mget A i j = mget M i c.
Proof.
  intros M drop HM Hd. rewrite drop_agree, drop_fancy_ok by assumption.
  eexists. exists (kept (scols M) drop). split; [reflexivity|]. split; [reflexivity|].
  split; [apply kept_sorted|]. split; [intros c; apply kept_In|].
  unfold nrows. cbn [srows scols]. rewrite map_length. split; [reflexivity|]. split; [reflexivity|].
  intros i j c Hj. unfold mget. cbn [srows]. rewrite nth_error_map.
  destruct (nth_error (srows M) i) as [r|]; cbn; [|reflexivity].
  rewrite sget_select_cols, Hj. reflexivity.
Qed.

(** A column index outside the matrix shrinks only the coordinate version. *)
Theorem C21_column_dropping_agrees_refuted : exists M drop A B,
  swf M /\ dropcols_fancy M drop = Ok A /\ dropcols_coo M drop = Ok B /\ scols A <> scols B.
Proof.
  exists (mkS [[(0, 1%Z)]] 2), [7]. eexists. eexists. split; [repeat constructor|].
  split; [vm_compute; reflexivity|]. split; [vm_compute; reflexivity|]. cbn. lia.
Qed.

Example C21_example : dropcols_coo (mkS [[(0, 5%Z); (3, 6%Z); (1, 7%Z)]] 4) [2; 0; 2]
  = Ok (mkS [[(1, 6%Z); (0, 7%Z)]] 2).
Proof. reflexivity. Qed.

(** ** C22 *)
Theorem C22_soft_split_partitions : forall cols draw prob M L R,
  soft_split cols draw prob M = (L, R) ->
  nrows L = nrows M /\ nrows R = nrows M /\ scols L = scols M /\ scols R = scols M /\
  (forall i j, mget L i j + mget R i j = mget M i j)%Z /\
  (forall i j, ~ In j cols -> mget R i j = 0%Z) /\
  (forall i j, In j cols -> (cutoff <= prob)%Q -> mget L i j = 0%Z) /\
  (forall i j r, nth_error (srows M) i = Some r -> NoDup (map fst r) -> mget L i j = 0%Z \/ mget R i j = 0%Z) /\
  (forall i k e, (entry L i k = Some e \/ entry R i k = Some e) -> snd e <> 0%Z).
Proof.
  intros cols draw p M L R H.
  destruct (soft_split_row cols draw p M L R 0 H) as (N1 & N2 & S1 & S2 & _).
  split; [exact N1|]. split; [exact N2|]. split; [exact S1|]. split; [exact S2|].
  assert (G : forall i j, match nth_error (srows M) i with
      | None => mget L i j = 0%Z /\ mget R i j = 0%Z
      | Some r => exists k, mget L i j = sget (fst (fst (soft_row cols draw p k r))) j /\
                            mget R i j = sget (snd (fst (soft_row cols draw p k r))) j end).
  { intros i j. destruct (soft_split_row cols draw p M L R i H) as (_ & _ & _ & _ & Hi).
    destruct (nth_error (srows M) i); [|apply Hi]. destruct Hi as (k & Hk & _). exists k. apply Hk. }
  split.
  { intros i j. specialize (G i j). unfold mget at 3. destruct (nth_error (srows M) i) as [r|]; [|lia].
    destruct G as (k & -> & ->). pose proof (soft_row_sum cols draw p r j k) as X.
    destruct (soft_row cols draw p k r) as [[a b] k']. exact X. }
  split.
  { intros i j Hj. specialize (G i j). destruct (nth_error (srows M) i) as [r|]; [|lia].
    destruct G as (k & _ & ->). pose proof (soft_row_right cols draw p r j Hj k) as X.
    destruct (soft_row cols draw p k r) as [[a b] k']. exact X. }
  split.
  { intros i j Hj Hp. specialize (G i j). destruct (nth_error (srows M) i) as [r|]; [|lia].
    destruct G as (k & -> & _). pose proof (soft_row_all cols draw p r j Hj Hp k) as X.
    destruct (soft_row cols draw p k r) as [[a b] k']. exact X. }
  split.
  { intros i j r Hr Hnd. specialize (G i j). rewrite Hr in G. destruct G as (k & -> & ->).
    pose proof (soft_row_disjoint cols draw p r j Hnd k) as X.
    destruct (soft_row cols draw p k r) as [[a b] k']. exact X. }
  exact (soft_split_stored cols draw p M L R H).
Qed.

(** Below the cut-off each entry in a selected column has its own draw, made in
    storage order, and moves exactly if the draw is below the probability. *)
Theorem C22_each_entry_has_its_own_draw : forall cols draw prob M L R i k r c v,
  soft_split cols draw prob M = (L, R) -> (prob < cutoff)%Q ->
  nth_error (srows M) i = Some r -> nth_error r k = Some (c, v) -> NoDup (map fst r) -> In c cols ->
  let n := length (filter (fun e => existsb (Nat.eqb (fst e)) cols)
                          (concat (firstn i (srows M)) ++ firstn k r)) in
  mget R i c = (if Qlt_le_dec (draw n) prob then v else 0%Z) /\
  mget L i c = (if Qlt_le_dec (draw n) prob then 0%Z else v).
Proof.
  intros cols draw p M L R i k r c v H Hp Hr Hk Hnd Hc n.
  pose proof (C22_soft_split_partitions cols draw p M L R H) as (_ & _ & _ & _ & Hsum & _).
  destruct (soft_split_row cols draw p M L R i H) as (_ & _ & _ & _ & G). rewrite Hr in G.
  destruct G as (k0 & G & Hk0). specialize (Hk0 Hp).
  assert (HR : mget R i c = if Qlt_le_dec (draw n) p then v else 0%Z).
  { destruct (G c) as [_ ->]. rewrite (soft_row_decide cols draw p r c v k Hp Hnd Hc Hk k0).
    replace (k0 + selected cols (firstn k r)) with n.
    - unfold Qlt_bool. destruct (Qlt_le_dec (draw n) p) as [X|X].
      + destruct (Qle_bool p (draw n)) eqn:E; [|reflexivity]. apply Qle_bool_iff in E. lra.
      + apply Qle_bool_iff in X. rewrite X. reflexivity.
    - unfold n. rewrite Hk0, filter_app, app_length. reflexivity. }
  split; [exact HR|]. specialize (Hsum i c). rewrite HR in Hsum.
  assert (HM : mget M i c = v).
  { unfold mget. rewrite Hr. clear - Hk Hnd. revert k Hk. induction r as [|[c0 v0] r IH]; intros [|k] Hk; try discriminate.
    - injection Hk as -> ->. inversion Hnd; subst. rewrite sget_cons. cbn [fst snd]. rewrite Nat.eqb_refl.
      rewrite sget_absent by assumption. lia.
    - cbn [nth_error] in Hk. inversion Hnd as [|? ? Hn Hnd']; subst. rewrite sget_cons. cbn [fst snd].
      destruct (Nat.eqb_spec c0 c) as [->|].
      + exfalso. apply Hn. apply nth_error_In in Hk. apply in_map with (f := fst) in Hk. exact Hk.
      + rewrite (IH Hnd' k Hk). lia. }
  rewrite HM in Hsum. destruct (Qlt_le_dec (draw n) p); lia.
Qed.

Example C22_example :
  soft_split [0; 2] (fun n => nth n [(1 # 4); (3 # 4); (1 # 8)]%Q 0%Q) (1 # 2)
             (mkS [[(0, 5%Z); (1, 6%Z); (2, 7%Z)]; [(2, 8%Z)]] 3)
  = (mkS [[(1, 6%Z); (2, 7%Z)]; []] 3, mkS [[(0, 5%Z)]; [(2, 8%Z)]] 3).
Proof. vm_compute. reflexivity. Qed.

Print Assumptions C14_completion_conserves_tokens.
Print Assumptions C14_completion_returns.
Print Assumptions C15_counts_are_nonnegative_refuted.
Print Assumptions C15_counts_nonnegative_iff.
Print Assumptions C15_counts_nonnegative_small_jitter.
Print Assumptions C16_threshold_removing_documents_raises.
Print Assumptions C16_filter_returns_both_halves_refuted.
Print Assumptions C16_threshold_met_by_all_returns.
Print Assumptions C17_long_rows_are_divided.
Print Assumptions C17_short_rows_are_copied.
Print Assumptions C17_halves_add_up_refuted.
Print Assumptions C18_fold_of_each_link.
Print Assumptions C18_each_link_queried_once_divisible.
Print Assumptions C18_leftover_links_never_queried.
Print Assumptions C18_each_link_queried_once_refuted.
Print Assumptions C19_link_prediction_split_always_raises.
Print Assumptions C19_link_prediction_split_returns_refuted.
Print Assumptions C20_returned_documents.
Print Assumptions C20_single_feature_separates.
Print Assumptions C20_split_succeeds.
Print Assumptions C20_split_on_feature_separates_refuted.
Print Assumptions C20_split_on_feature_disjoint_refuted.
Print Assumptions C20_split_without_links_refuted.
Print Assumptions C21_column_dropping_agrees.
Print Assumptions C21_column_dropping_agrees_refuted.
Print Assumptions C22_soft_split_partitions.
Print Assumptions C22_each_entry_has_its_own_draw.
Print Assumptions C68_mirror_restores_off_diagonal.
Print Assumptions C68_mirror_is_symmetric.
Print Assumptions C68_mirror_doubles_diagonal.
Print Assumptions C68_mirror_restores_matrix_refuted.
