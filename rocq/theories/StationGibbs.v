(** * The Gibbs sampler of latent Dirichlet allocation as a chain: its visits have the
    conditional probabilities of the model of the words. *)
From Coq Require Import List ZArith QArith Qreals Reals Arith Bool Lra Lia Permutation.
From Verif Require Import Base RealModel RealProofs MixModel MixProofs VbModel VbProofs BoundSpec BoundProofs BoundMore StationSpec StationProofs.
From Verif Require Import EvalSpec EvalProofs CvbModel CvbProofs CvbMore GibbsModel GibbsSpec GibbsProofs GibbsMore GibbsRuns.
Import ListNotations.
Open Scope nat_scope.

(** ** The tokens, one by one *)
Definition pairs (lens : list nat) : list (nat * nat) :=
  flat_map (fun d => map (pair d) (doc_tokens lens d)) (seq 0 (length lens)).
Lemma seq_docs lens : seq 0 (total lens) = flat_map (doc_tokens lens) (seq 0 (length lens)).
Proof.
  assert (G : forall m, m <= length lens -> flat_map (doc_tokens lens) (seq 0 m) = seq 0 (offset lens m)).
  { induction m as [|m IH]; intros Hm; [reflexivity|]. rewrite seq_S, flat_map_app, offset_S, seq_app, IH by lia. cbn [flat_map Nat.add].
    rewrite app_nil_r. reflexivity. }
  rewrite <- offset_all, <- (G (length lens)) by lia. reflexivity.
Qed.
Lemma map_flat_map {A B C} (f : B -> C) (g : A -> list B) l : map f (flat_map g l) = flat_map (fun x => map f (g x)) l.
Proof. induction l as [|x l IH]; [reflexivity|]. cbn [flat_map]. rewrite map_app, IH. reflexivity. Qed.
Lemma flat_map_ext' {A B} (f g : A -> list B) l : (forall x, In x l -> f x = g x) -> flat_map f l = flat_map g l.
Proof. induction l as [|x l IH]; intros H; [reflexivity|]. cbn. rewrite (H x (or_introl eq_refl)), IH; [reflexivity|]. intros; apply H; right; assumption. Qed.
Lemma pairs_snd lens : map snd (pairs lens) = seq 0 (total lens).
Proof.
  unfold pairs. rewrite seq_docs, map_flat_map. apply flat_map_ext'. intros d _. rewrite map_map. cbn [snd]. apply map_id.
Qed.
Lemma pairs_in lens d n : In (d, n) (pairs lens) <-> d < length lens /\ In n (doc_tokens lens d).
Proof.
  unfold pairs. rewrite in_flat_map. split.
  - intros (d' & Hd & H). apply in_map_iff in H as (n' & [= -> ->] & H). apply in_seq in Hd. split; [lia|exact H].
  - intros [Hd H]. exists d. split; [apply in_seq; lia|]. apply in_map, H.
Qed.
Lemma tokens_pairs w lens : corpus_tokens w lens = map (fun p => (fst p, w (snd p))) (pairs lens).
Proof.
  unfold corpus_tokens, pairs. rewrite map_flat_map. apply flat_map_ext'. intros d _. rewrite map_map. reflexivity.
Qed.
Lemma pairs_length lens : length (pairs lens) = total lens.
Proof. rewrite <- (map_length snd), pairs_snd, seq_length. reflexivity. Qed.
Lemma tokens_length w lens : length (corpus_tokens w lens) = total lens.
Proof. rewrite tokens_pairs, map_length. apply pairs_length. Qed.
Lemma list_pairs (lens : list nat) a : length a = total lens -> a = map (fun p => nth (snd p) a 0) (pairs lens).
Proof.
  intros L. transitivity (map (fun n => nth n a 0) (map snd (pairs lens))); [|rewrite map_map; reflexivity].
  rewrite pairs_snd, <- L. apply nth_ext with 0 0; [rewrite map_length, seq_length; reflexivity|].
  intros n Hn. rewrite (nth_indep (map (fun n => nth n a 0) (seq 0 (length a))) 0 ((fun n => nth n a 0) 0)) by (rewrite map_length, seq_length; exact Hn).
  rewrite (map_nth (fun n => nth n a 0)), seq_nth by exact Hn. reflexivity.
Qed.
Lemma pairs_split lens d n : In (d, n) (pairs lens) -> exists P1 P2, pairs lens = P1 ++ (d, n) :: P2 /\ length P1 = n /\
  (forall p, In p P1 -> snd p <> n) /\ (forall p, In p P2 -> snd p <> n).
Proof.
  intros H. apply in_split in H as (P1 & P2 & E). exists P1, P2. split; [exact E|].
  pose proof (pairs_snd lens) as S. rewrite E, map_app in S. cbn [map snd] in S.
  assert (ND : NoDup (map snd P1 ++ n :: map snd P2)) by (rewrite S; apply seq_NoDup).
  split; [|split].
  - assert (nth (length P1) (seq 0 (total lens)) 0 = n).
    { rewrite <- S, app_nth2; rewrite map_length; [|lia]. rewrite Nat.sub_diag. reflexivity. }
    rewrite seq_nth in H; [lia|]. rewrite <- (seq_length (total lens) 0), <- S, app_length, map_length. cbn. lia.
  - intros p Hp Q. apply NoDup_remove_2 in ND. apply ND, in_or_app. left. rewrite <- Q. apply in_map, Hp.
  - intros p Hp Q. apply NoDup_remove_2 in ND. apply ND, in_or_app. right. rewrite <- Q. apply in_map, Hp.
Qed.

(** Sums over tokens are counts. *)
Lemma rsum_count {A} (p : A -> bool) l : rsum (map (fun x => if p x then 1%R else 0%R) l) = IZR (count p l).
Proof.
  induction l as [|x l IH]; [reflexivity|]. cbn [map rsum]. rewrite IH, count_cons, plus_IZR. destruct (p x); reflexivity.
Qed.
Lemma rsum_pairs_doc lens d (f : nat -> R) : d < length lens ->
  rsum (map (fun p => if fst p =? d then f (snd p) else 0%R) (pairs lens)) = rsum (map f (doc_tokens lens d)).
Proof.
  intros Hd. unfold pairs. rewrite rsum_flat_map.
  change (vsum (length lens) (fun k => rsum (map (fun p : nat * nat => if fst p =? d then f (snd p) else 0%R) (map (pair k) (doc_tokens lens k)))) =
          rsum (map f (doc_tokens lens d))).
  rewrite (vsum_only (length lens) d); [|exact Hd|].
  - rewrite map_map. apply rsum_ext. intros n _. cbn [fst snd]. rewrite Nat.eqb_refl. reflexivity.
  - intros j _ N. rewrite map_map. cbn [fst snd]. rewrite (proj2 (Nat.eqb_neq j d) N). rewrite (rsum_const 0%R). ring.
Qed.
Lemma rsum_pairs_all lens (f : nat -> R) : rsum (map (fun p => f (snd p)) (pairs lens)) = rsum (map f (seq 0 (total lens))).
Proof. rewrite <- pairs_snd, map_map. reflexivity. Qed.
Lemma rsum_without lens d n P1 P2 (f : nat * nat -> R) : pairs lens = P1 ++ (d, n) :: P2 ->
  (forall p, In p P1 -> snd p <> n) -> (forall p, In p P2 -> snd p <> n) ->
  rsum (map f (P1 ++ P2)) = rsum (map (fun p => if snd p =? n then 0%R else f p) (pairs lens)).
Proof.
  intros -> H1 H2. rewrite !map_app, !rsum_app. cbn [map rsum snd]. rewrite Nat.eqb_refl, Rplus_0_l.
  f_equal; apply rsum_ext; intros p Hp; rewrite (proj2 (Nat.eqb_neq (snd p) n)); auto.
Qed.

Lemma combine_app {A B} (l1 : list A) (m1 : list B) l2 m2 : length l1 = length m1 ->
  combine (l1 ++ l2) (m1 ++ m2) = combine l1 m1 ++ combine l2 m2.
Proof. revert m1. induction l1 as [|x l1 IH]; intros [|y m1] L; try discriminate L; [reflexivity|]. cbn. f_equal. apply IH. injection L; auto. Qed.
Lemma combine_maps {A B C} (f : A -> B) (g : A -> C) l : combine (map f l) (map g l) = map (fun x => (f x, g x)) l.
Proof. induction l as [|x l IH]; [reflexivity|]. cbn. f_equal. exact IH. Qed.
Lemma rsum_front {A} (f : A -> R) l1 x l2 : rsum (map f (l1 ++ x :: l2)) = rsum (map f (x :: l1 ++ l2)).
Proof. cbn [map rsum]. rewrite !map_app, !rsum_app. cbn [map rsum]. ring. Qed.

Lemma lnB_ext g n v v' : (forall i, i < n -> v i = v' i) -> lnB g n v = lnB g n v'.
Proof. intros H. unfold lnB. rewrite (vsum_ext n v v' H), (vsum_ext n (fun i => g (v i)) (fun i => g (v' i))); [reflexivity|]. intros; f_equal; auto. Qed.
Lemma joint_ext g D K T alpha eta tk a tk' a' :
  (forall d k, n_doc tk a d k = n_doc tk' a' d k) -> (forall k t, n_word tk a k t = n_word tk' a' k t) ->
  joint g D K T alpha eta tk a = joint g D K T alpha eta tk' a'.
Proof.
  intros H1 H2. unfold joint. f_equal; apply vsum_ext; intros i _; f_equal; apply lnB_ext; intros j _; f_equal; auto.
Qed.

Section Token.
  Context (w : nat -> nat) (lens : list nat) (a : list nat) (d n : nat).
  Context (La : length a = total lens) (Hd : d < length lens) (Hn : In n (doc_tokens lens d)).
  Notation z := (fun m => nth m a 0).

  (** The tokens and topics other than the [n]th. *)
  Lemma split_token : exists tk1 tk2 a1 a2, corpus_tokens w lens = tk1 ++ (d, w n) :: tk2 /\ length tk1 = length a1 /\
    (forall k, put n k a = a1 ++ k :: a2) /\
    (forall k, n_doc (tk1 ++ tk2) (a1 ++ a2) d k = IZR (others_doc lens z n d k)) /\
    (forall k t, n_word (tk1 ++ tk2) (a1 ++ a2) k t = IZR (others_word w lens z n k t)).
  Proof.
    destruct (pairs_split lens d n ltac:(apply pairs_in; split; assumption)) as (P1 & P2 & E & L1 & N1 & N2).
    exists (map (fun p => (fst p, w (snd p))) P1), (map (fun p => (fst p, w (snd p))) P2),
           (map (fun p => z (snd p)) P1), (map (fun p => z (snd p)) P2).
    split; [rewrite tokens_pairs, E, map_app; reflexivity|]. split; [rewrite !map_length; reflexivity|].
    split.
    - intros k. rewrite (list_pairs lens a La) at 1. rewrite E, map_app. cbn [map snd].
      rewrite <- L1 at 1. rewrite <- (map_length (fun p => nth (snd p) a 0) P1) at 1.
      generalize (map (fun p => nth (snd p) a 0) P1). intros l. induction l as [|x l IH]; [reflexivity|]. cbn. f_equal. exact IH.
    - split; intros k; [|intros t]; unfold n_doc, n_word; rewrite <- !map_app, combine_maps, map_map.
      + rewrite (rsum_without lens d n P1 P2 _ E N1 N2).
        rewrite (rsum_ext _ (fun p => if fst p =? d then (if negb (snd p =? n) && (nth (snd p) a 0%nat =? k) then 1 else 0) else 0)%R).
        * rewrite (rsum_pairs_doc lens d (fun m => if negb (m =? n) && (nth m a 0%nat =? k) then 1 else 0)%R Hd). apply rsum_count.
        * intros [d' m] _. cbn [fst snd]. destruct (m =? n), (d' =? d); reflexivity.
      + rewrite (rsum_without lens d n P1 P2 _ E N1 N2).
        rewrite (rsum_ext _ (fun p => (fun m => if negb (m =? n) && ((nth m a 0%nat =? k) && (w m =? t)) then 1 else 0) (snd p))%R).
        * rewrite (rsum_pairs_all lens (fun m => if negb (m =? n) && ((nth m a 0%nat =? k) && (w m =? t)) then 1%R else 0%R)). apply rsum_count.
        * intros [d' m] _. cbn [fst snd]. destruct (m =? n); [reflexivity|]. cbn [negb andb]. rewrite andb_comm. reflexivity.
  Qed.

  Lemma others_total T k : (forall m, m < total lens -> w m < T) ->
    vsum T (fun t => IZR (others_word w lens z n k t)) = IZR (others_all lens z n k).
  Proof.
    clear La Hd Hn. clear d. intros Hw. unfold others_word, others_all. rewrite <- rsum_count.
    rewrite (vsum_ext T _ (fun t => rsum (map (fun m => if negb (m =? n) && ((nth m a 0%nat =? k) && (w m =? t)) then 1 else 0)%R (seq 0 (total lens)))))
      by (intros; symmetry; apply rsum_count).
    rewrite (rsum_vsum T (fun t m => if negb (m =? n) && ((nth m a 0%nat =? k) && (w m =? t)) then 1 else 0)%R).
    apply rsum_ext. intros m Hm. apply in_seq in Hm. specialize (Hw m ltac:(lia)).
    rewrite (vsum_only T (w m)); [rewrite Nat.eqb_refl, andb_true_r; reflexivity|exact Hw|].
    intros t _ N. rewrite (proj2 (Nat.eqb_neq (w m) t)) by congruence. rewrite !andb_false_r. reflexivity.
  Qed.
End Token.

(** Products. *)
Definition rprod (l : list R) : R := fold_right Rmult 1%R l.
Lemma rprod_app l l' : rprod (l ++ l') = (rprod l * rprod l')%R.
Proof. unfold rprod. induction l as [|x l IH]; cbn; [ring|]. rewrite IH. ring. Qed.
Lemma rprod_front {A} (f : A -> R) l1 x l2 : rprod (map f (l1 ++ x :: l2)) = (f x * rprod (map f (l1 ++ l2)))%R.
Proof. rewrite !map_app, !rprod_app. cbn [map rprod fold_right]. change (fold_right Rmult 1%R (map f l2)) with (rprod (map f l2)). ring. Qed.

(** The part of the topics in the documents. *)
Definition docs_part (g : R -> R) (D K : nat) (alpha : vec) (tk : list token) (a : list nat) : R :=
  vsum D (fun d => lnB g K (fun k => alpha k + n_doc tk a d k) - lnB g K alpha)%R.
Lemma docs_cons g D K alpha d t tk k a : gamma_like g -> (forall k, k < K -> (0 < alpha k)%R) -> d < D -> k < K ->
  docs_part g D K alpha ((d, t) :: tk) (k :: a) =
  (docs_part g D K alpha tk a + ln ((alpha k + n_doc tk a d k) / vsum K (fun k => alpha k + n_doc tk a d k)))%R.
Proof.
  intros G PA Hd Hk. unfold docs_part.
  rewrite (vsum_bump D (fun d0 => lnB g K (fun k0 => alpha k0 + n_doc tk a d0 k0) - lnB g K alpha)%R
    (fun d0 => lnB g K (fun k0 => alpha k0 + n_doc ((d, t) :: tk) (k :: a) d0 k0) - lnB g K alpha)%R d
    (ln ((alpha k + n_doc tk a d k) / vsum K (fun k => alpha k + n_doc tk a d k)))%R Hd); [reflexivity| |].
  - rewrite (lnB_bump g G K (fun k0 => alpha k0 + n_doc tk a d k0)%R _ k Hk).
    + ring.
    + intros i Hi. specialize (PA i Hi). pose proof (n_doc_nonneg tk a d i). lra.
    + unfold n_doc. cbn [combine map rsum]. rewrite !Nat.eqb_refl. cbn [andb]. ring.
    + intros i Hi N. unfold n_doc. cbn [combine map rsum]. rewrite (proj2 (Nat.eqb_neq k i)) by congruence. rewrite andb_false_r. ring.
  - intros i Hi N. f_equal. apply lnB_ext. intros j Hj. f_equal. unfold n_doc. cbn [combine map rsum].
    rewrite (proj2 (Nat.eqb_neq d i)) by congruence. cbn [andb]. ring.
Qed.

Lemma Q2R_inject z : Q2R (inject_Z z) = IZR z.
Proof. unfold Q2R, inject_Z. cbn [Qnum Qden]. field. Qed.
Lemma Q2R_qsum {A} (f : A -> Q) l : Q2R (qsum f l) = rsum (map (fun x => Q2R (f x)) l).
Proof.
  induction l as [|x l IH]; [apply RMicromega.Q2R_0|]. rewrite (qsum_cons f x l), Q2R_plus, IH. reflexivity.
Qed.
Lemma Q2R_pos x : (0 < x)%Q -> (0 < Q2R x)%R.
Proof. intros H. apply Qlt_Rlt in H. rewrite RMicromega.Q2R_0 in H. exact H. Qed.
Lemma Q2R_nonneg x : (0 <= x)%Q -> (0 <= Q2R x)%R.
Proof. intros H. apply Qle_Rle in H. rewrite RMicromega.Q2R_0 in H. exact H. Qed.

(** ** The visits *)
Definition topics (lens : list nat) (s : gst) : list nat := map (g_z s) (seq 0 (total lens)).
Definition place (lens : list nat) (v : nat * nat) : nat := offset lens (fst v) + snd v.
Definition valid (lens : list nat) (v : nat * nat) : Prop := fst v < length lens /\ snd v < nth (fst v) lens 0.
Lemma valid_place lens v : valid lens v -> place lens v < total lens /\ In (place lens v) (doc_tokens lens (fst v)).
Proof.
  intros [H1 H2]. split; [pose proof (offset_end lens (fst v) H1); unfold place; lia|]. apply doc_token_in, H2.
Qed.
Lemma nth_topics lens s n : n < total lens -> nth n (topics lens s) 0 = g_z s n.
Proof.
  intros H. unfold topics. rewrite (nth_indep _ 0 (g_z s 0)) by (rewrite map_length, seq_length; exact H).
  rewrite map_nth, seq_nth by exact H. reflexivity.
Qed.
Lemma topics_length lens s : length (topics lens s) = total lens.
Proof. unfold topics. rewrite map_length, seq_length. reflexivity. Qed.
Lemma topics_in K lens s : assigned lens K (g_z s) -> In (topics lens s) (assignments K (total lens)).
Proof.
  intros H. apply in_assignments. split; [apply topics_length|]. apply Forall_forall. intros k Hk. apply in_map_iff in Hk as (n & <- & Hn).
  apply in_seq in Hn. apply H. lia.
Qed.
Lemma topics_put lens s s' n k : n < total lens -> g_z s' = upd1 (g_z s) n k -> topics lens s' = put n k (topics lens s).
Proof.
  intros Hn E. apply nth_ext with 0 0; [rewrite put_length, !topics_length; reflexivity|].
  intros m Hm. rewrite topics_length in Hm. rewrite nth_topics by exact Hm. rewrite E. unfold upd1.
  destruct (Nat.eqb_spec m n) as [->|N]; [rewrite put_same by (rewrite topics_length; exact Hn); reflexivity|].
  rewrite put_other by exact N. rewrite nth_topics by exact Hm. reflexivity.
Qed.

Section Visits.
  Context (K T : nat) (w : nat -> nat) (lens : list nat) (isQuery : bool).
  Context (bkv : nat -> nat -> Z) (bk : nat -> Z) (a b : nat -> Q) (special : gst -> nat -> nat -> Z).
  Notation ok := (counts_ok K w lens isQuery bkv bk).
  Notation N := (total lens).
  Hypothesis HK0 : 0 < K.
  Hypothesis HK : K <= 256.
  Hypothesis Hspecial : forall s d v, (special s d v < Z.of_nat K)%Z.
  Hypothesis HP : proper K T w lens bkv bk a b.

  Definition gmoves (v : nat * nat) (A : list nat) (r : Q) (A' : list nat) : Prop :=
    forall s, ok s -> topics lens s = A ->
    exists s', visit K T w a b isQuery special (fst v) (place lens v) r s = Ok s' /\ ok s' /\ topics lens s' = A'.
  Definition cq (v : nat * nat) (A : list nat) (k : nat) : Q := cond T w lens isQuery bkv bk a b (fun m => nth m A 0) (fst v) (place lens v) k.
  Definition gq (v : nat * nat) (A : list nat) (k : nat) : R := (Q2R (cq v A k) / vsum K (fun j => Q2R (cq v A j)))%R.

  Lemma cond_agree z z' d n k : d < length lens -> (forall m, m < N -> m <> n -> z m = z' m) ->
    cond T w lens isQuery bkv bk a b z d n k = cond T w lens isQuery bkv bk a b z' d n k.
  Proof.
    clear. intros Hd H.
    assert (E1 : others_doc lens z n d k = others_doc lens z' n d k).
    { apply count_ext. intros m Hm. apply in_seq in Hm. pose proof (offset_end lens d Hd).
      destruct (Nat.eqb_spec m n); [reflexivity|]. rewrite (H m) by (try assumption; lia). reflexivity. }
    assert (E2 : forall t, others_word w lens z n k t = others_word w lens z' n k t).
    { intros t. apply count_ext. intros m Hm. apply in_seq in Hm.
      destruct (Nat.eqb_spec m n); [reflexivity|]. rewrite (H m) by (try assumption; lia). reflexivity. }
    assert (E3 : others_all lens z n k = others_all lens z' n k).
    { apply count_ext. intros m Hm. apply in_seq in Hm.
      destruct (Nat.eqb_spec m n); [reflexivity|]. rewrite (H m) by (try assumption; lia). reflexivity. }
    unfold cond, conditional, conditional_fixed. rewrite E1, E2, E3. reflexivity.
  Qed.
  Lemma cq_put v A k j : valid lens v -> cq v (put (place lens v) k A) j = cq v A j.
  Proof. clear. intros Hv. unfold cq. apply cond_agree; [apply Hv|]. intros m _ N. apply put_other, N. Qed.

  Lemma cq_props v A : valid lens v -> (forall j, j < K -> (0 <= cq v A j)%Q) /\ (0 < qsum (cq v A) (seq 0 K))%Q.
  Proof. clear Hspecial HK HK0 special. intros Hv. apply cond_props; [exact (fun _ _ _ => 0%Z)|exact HP|]. apply valid_place, Hv. Qed.
  Lemma cq_total v A : valid lens v -> (0 < vsum K (fun j => Q2R (cq v A j)))%R.
  Proof.
    clear Hspecial HK HK0 special. intros Hv. unfold vsum. rewrite <- Q2R_qsum. apply Q2R_pos, cq_props, Hv.
  Qed.
  Lemma gq_legal v : valid lens v -> legal K N (place lens) gq v.
  Proof.
    clear Hspecial HK special. intros Hv. split; [apply valid_place, Hv|]. intros A HA. pose proof (cq_total v A Hv) as P. split.
    - intros k Hk. unfold gq. apply Rle_mult_inv_pos; [|exact P]. apply Q2R_nonneg, cq_props; assumption.
    - unfold gq, Rdiv. rewrite vsum_scale_r. apply Rinv_r. lra.
  Qed.

  (** The visit by the topic it gives. *)
  Lemma visit_gives v r s : valid lens v -> ok s -> (0 < r)%Q -> (r <= 1)%Q ->
    exists k s', visit K T w a b isQuery special (fst v) (place lens v) r s = Ok s' /\ ok s' /\ k < K /\
      topics lens s' = put (place lens v) k (topics lens s) /\
      owns (cq v (topics lens s)) k (r * qsum (cq v (topics lens s)) (seq 0 K))%Q.
  Proof.
    intros Hv Hs H0 H1. destruct Hv as [Hd Hi] eqn:HV. clear HV.
    destruct (visit_total K T w lens isQuery bkv bk a b special HP (fst v) (snd v) r s HK Hd Hi Hs H0 H1) as (k & s' & E & Hk & Ez & O).
    fold (place lens v) in *. exists k, s'. split; [exact E|].
    split; [exact (visit_ok K T w lens isQuery bkv bk a b special HK Hspecial (fst v) (snd v) r s s' Hd Hi Hs E)|]. split; [exact Hk|].
    split; [apply topics_put; [apply valid_place; split; assumption|exact Ez]|].
    assert (EQ : forall j, cq v (topics lens s) j = cond T w lens isQuery bkv bk a b (g_z s) (fst v) (place lens v) j).
    { intros j. apply cond_agree; [exact Hd|]. intros m Hm _. apply nth_topics, Hm. }
    assert (ES : (qsum (cq v (topics lens s)) (seq 0 K) == qsum (cond T w lens isQuery bkv bk a b (g_z s) (fst v) (place lens v)) (seq 0 K))%Q).
    { apply qsum_ext. intros j _. rewrite EQ. reflexivity. }
    apply owns_ext with (f := cond T w lens isQuery bkv bk a b (g_z s) (fst v) (place lens v)); [intros; rewrite EQ; reflexivity|].
    destruct O as [O1 O2]. split; rewrite ES; assumption.
  Qed.
  Lemma ok_exists A : In A (assignments K N) -> exists s, ok s /\ topics lens s = A.
  Proof.
    clear. intros HA. apply in_assignments in HA as [L F].
    set (z := fun m => nth m A 0).
    exists (mkG z (doc_topic lens z) (fun k v => bkv k v + if isQuery then 0 else topic_word w lens z k v)%Z
              (fun k => bk k + if isQuery then 0 else topic_all lens z k)%Z).
    split.
    - split; [|split; [|split]]; cbn [g_z g_dk g_kv g_k]; try reflexivity. intros n Hn. rewrite Forall_forall in F. apply F, nth_In. lia.
    - apply nth_ext with 0 0; [rewrite topics_length; congruence|]. intros n Hn. rewrite topics_length in Hn. apply nth_topics, Hn.
  Qed.

  Lemma visit_share v A A' : valid lens v -> In A (assignments K N) -> In A' (assignments K N) ->
    share (fun r => gmoves v A r A') (prob (place lens) gq v A A').
  Proof.
    intros Hv HA HA'. destruct (valid_place lens v Hv) as [Hn _].
    pose proof HA as HL. apply in_assignments in HL as [LA _].
    assert (FW : forall r, (0 < r)%Q -> (r <= 1)%Q -> gmoves v A r A' ->
      exists k, k < K /\ A' = put (place lens v) k A /\ owns (cq v A) k (r * qsum (cq v A) (seq 0 K))%Q).
    { intros r H0 H1 M. destruct (ok_exists A HA) as (s & Hs & Es). destruct (M s Hs Es) as (s1 & E1 & _ & T1).
      destruct (visit_gives v r s Hv Hs H0 H1) as (k & s2 & E2 & _ & Hk & T2 & O). rewrite Es in T2, O.
      exists k. split; [exact Hk|]. split; [|exact O]. rewrite E1 in E2. injection E2 as <-. congruence. }
    unfold prob. destruct (eqa (put (place lens v) (nth (place lens v) A' 0) A) A') eqn:EQ.
    - unfold eqa in EQ. destruct (list_eq_dec _ _ _) as [EA|] in EQ; [|discriminate EQ]. clear EQ.
      set (k := nth (place lens v) A' 0) in *. assert (Hk : k < K) by (eapply nth_in; eassumption).
      pose proof (cq_total v A Hv) as PW. set (W := vsum K (fun j => Q2R (cq v A j))) in *.
      assert (EW : Q2R (qsum (cq v A) (seq 0 K)) = W) by apply Q2R_qsum.
      set (c := fun k => vsum k (fun j => Q2R (cq v A j))).
      assert (EC : forall i, Q2R (qsum (cq v A) (seq 0 i)) = c i) by (intros; apply Q2R_qsum).
      assert (NN : forall j, j < K -> (0 <= Q2R (cq v A j))%R) by (intros; apply Q2R_nonneg, cq_props; assumption).
      assert (C0 : (0 <= c k)%R) by (apply vsum_nonneg; intros; apply NN; lia).
      assert (CS : c (S k) = (c k + Q2R (cq v A k))%R) by apply vsum_S.
      assert (CM : forall i j, j + i <= K -> (c j <= c (j + i)%nat)%R).
      { induction i as [|i IH]; intros j Hij; [rewrite Nat.add_0_r; lra|]. rewrite Nat.add_succ_r. unfold c at 2. rewrite vsum_S. fold (c (j + i)).
        pose proof (IH j ltac:(lia)). pose proof (NN (j + i) ltac:(lia)). lra. }
      assert (CK : (c (S k) <= W)%R).
      { pose proof (CM (K - S k) (S k) ltac:(lia)) as H. replace (S k + (K - S k)) with K in H by lia. exact H. }
      pose proof (NN k Hk) as NK.
      exists (c k / W)%R, (c (S k) / W)%R. split; [apply Rle_mult_inv_pos; assumption|].
      split; [apply Rmult_le_compat_r; [left; apply Rinv_0_lt_compat, PW|lra]|].
      split; [apply Rmult_le_reg_r with W; [exact PW|]; unfold Rdiv; rewrite Rmult_assoc, Rinv_l by lra; lra|].
      split; [unfold gq; fold W; rewrite CS; field; lra|].
      intros r H0 H1.
      assert (OW : owns (cq v A) k (r * qsum (cq v A) (seq 0 K))%Q <-> (c k / W < Q2R r)%R /\ (Q2R r <= c (S k) / W)%R).
      { unfold owns. split; intros [O1 O2].
        - apply Qlt_Rlt in O1. apply Qle_Rle in O2. rewrite EC, Q2R_mult, EW in O1, O2.
          split; (apply Rmult_lt_reg_r with W || apply Rmult_le_reg_r with W); try exact PW; unfold Rdiv; rewrite Rmult_assoc, Rinv_l by lra; lra.
        - split; [apply Rlt_Qlt|apply Rle_Qle]; rewrite EC, Q2R_mult, EW.
          + apply Rmult_lt_compat_r with (r := W) in O1; [|exact PW]. unfold Rdiv in O1. rewrite Rmult_assoc, Rinv_l in O1 by lra. lra.
          + apply Rmult_le_compat_r with (r := W) in O2; [|lra]. unfold Rdiv in O2. rewrite Rmult_assoc, Rinv_l in O2 by lra. lra. }
      rewrite <- OW. split.
      + intros M. destruct (FW r H0 H1 M) as (k' & Hk' & E' & O). replace k with k'; [exact O|].
        unfold k. rewrite E', put_same; [reflexivity|]. rewrite LA. exact Hn.
      + intros O s Hs Es. destruct (visit_gives v r s Hv Hs H0 H1) as (k2 & s2 & E2 & Ok2 & Hk2 & T2 & O2). rewrite Es in T2, O2.
        exists s2. split; [exact E2|]. split; [exact Ok2|]. rewrite T2, <- EA. f_equal.
        apply (owns_unique (cq v A) k2 k _) with (2 := O2) (3 := O). intros i Hi. apply cq_props; [exact Hv|lia].
    - apply share_never. intros r H0 H1 M. destruct (FW r H0 H1 M) as (k & Hk & E & _).
      rewrite E in EQ. rewrite put_same in EQ by (rewrite LA; exact Hn). rewrite eqa_refl in EQ. discriminate EQ.
  Qed.

  (** A law that is proportional to the weights of the sampler fits it. *)
  Lemma fits_weights pi v : valid lens v -> (forall A, In A (assignments K N) -> exists C, forall k, k < K -> pi (put (place lens v) k A) = (C * Q2R (cq v A k))%R) ->
    fits K N (place lens) gq pi v.
  Proof.
    clear Hspecial HK HK0 special. intros Hv H A k HA Hk. split.
    - destruct (H A HA) as (C & E). pose proof (cq_total v A Hv) as P. rewrite (E k Hk).
      rewrite (vsum_ext K _ (fun j => C * Q2R (cq v A j))%R) by (intros; apply E; assumption). rewrite vsum_scale. unfold gq. field. lra.
    - intros j. unfold gq. rewrite cq_put by exact Hv. f_equal. apply vsum_ext. intros i _. rewrite cq_put by exact Hv. reflexivity.
  Qed.
End Visits.

(** ** The laws of the model *)
Lemma put_counts (tk1 : list (nat * nat)) (x : nat * nat) tk2 a1 k a2 : length tk1 = length a1 ->
  (forall d j, n_doc (tk1 ++ x :: tk2) (a1 ++ k :: a2) d j = n_doc (x :: tk1 ++ tk2) (k :: a1 ++ a2) d j) /\
  (forall j t, n_word (tk1 ++ x :: tk2) (a1 ++ k :: a2) j t = n_word (x :: tk1 ++ tk2) (k :: a1 ++ a2) j t).
Proof.
  intros L. split; intros; unfold n_doc, n_word; rewrite combine_app by exact L; cbn [combine]; rewrite rsum_front, combine_app by exact L; reflexivity.
Qed.
Lemma exp_frac x y : (0 < x)%R -> (0 < y)%R -> exp (ln (x / y)) = (x / y)%R.
Proof. intros. apply exp_ln, Rdiv_lt_0_compat; assumption. Qed.

Section Laws.
  Context (K T : nat) (w : nat -> nat) (lens : list nat) (a b : nat -> Q) (g : R -> R).
  Context (G : gamma_like g) (Pa : forall j, j < K -> (0 < a j)%Q).
  Notation N := (total lens).
  Notation D := (length lens).
  Notation alpha := (fun k => Q2R (a k)).
  Notation eta := (fun t => Q2R (b t)).

  (** Training. *)
  Lemma posterior_weights v A : valid lens v -> In A (assignments K N) -> (forall t, t < T -> (0 < b t)%Q) -> (forall n, n < N -> w n < T) ->
    exists C, (0 < C)%R /\ forall k, k < K ->
      exp (joint g D K T alpha eta (corpus_tokens w lens) (put (place lens v) k A)) =
      (C * Q2R (cq T w lens false (fun _ _ => 0%Z) (fun _ => 0%Z) a b v A k))%R.
  Proof.
    intros Hv HA Pb Hw. destruct (valid_place lens v Hv) as [Hn Hin]. apply in_assignments in HA as [LA _].
    assert (PA : forall k, k < K -> (0 < alpha k)%R) by (intros; apply Q2R_pos; auto).
    assert (PE : forall t, t < T -> (0 < eta t)%R) by (intros; apply Q2R_pos; auto).
    destruct (split_token w lens A (fst v) (place lens v) LA (proj1 Hv) Hin) as (tk1 & tk2 & a1 & a2 & E & L & EP & ED & EW).
    set (n := place lens v) in *. set (d := fst v) in *.
    set (S := vsum K (fun k => alpha k + n_doc (tk1 ++ tk2) (a1 ++ a2) d k)%R).
    destruct (Nat.eq_dec K 0) as [->|HK]; [exists 1%R; split; [lra|intros; lia]|].
    assert (PS : (0 < S)%R).
    { apply vsum_pos; [lia|]. intros i Hi. specialize (PA i Hi). pose proof (n_doc_nonneg (tk1 ++ tk2) (a1 ++ a2) d i). lra. }
    exists (exp (joint g D K T alpha eta (tk1 ++ tk2) (a1 ++ a2)) / S)%R. split; [apply Rdiv_lt_0_compat; [apply exp_pos|exact PS]|].
    intros k Hk. rewrite EP, E. destruct (put_counts tk1 (d, w n) tk2 a1 k a2 L) as [C1 C2]. rewrite (joint_ext _ _ _ _ _ _ _ _ _ _ C1 C2).
    pose proof (Hw n Hn) as Hwn.
    set (oa := others_all lens (fun m => nth m A 0) n k).
    assert (ES : vsum T (fun t => eta t + n_word (tk1 ++ tk2) (a1 ++ a2) k t)%R = (Q2R (qsum b (seq 0 T)) + IZR oa)%R).
    { rewrite (vsum_plus T eta). f_equal; [unfold vsum; symmetry; apply Q2R_qsum|].
      rewrite (vsum_ext T _ (fun t => IZR (others_word w lens (fun m => nth m A 0%nat) n k t))) by (intros; apply EW).
      apply others_total. exact Hw. }
    assert (PT : (0 < vsum T (fun t => eta t + n_word (tk1 ++ tk2) (a1 ++ a2) k t))%R).
    { apply vsum_pos; [lia|]. intros i Hi. specialize (PE i Hi). pose proof (n_word_nonneg (tk1 ++ tk2) (a1 ++ a2) k i). lra. }
    rewrite (joint_cons g G D K T alpha eta PA PE d (w n) (tk1 ++ tk2) k (a1 ++ a2) (proj1 Hv) Hwn Hk).
    rewrite !exp_plus. fold S. specialize (PA k Hk). specialize (PE (w n) Hwn).
    pose proof (n_doc_nonneg (tk1 ++ tk2) (a1 ++ a2) d k). pose proof (n_word_nonneg (tk1 ++ tk2) (a1 ++ a2) k (w n)).
    rewrite !exp_frac by lra. rewrite ES in *. rewrite ED, EW.
    unfold cq, cond, conditional. fold n. cbn [Z.add].
    change (fst v) with d. fold oa.
    rewrite Q2R_div.
    2:{ intros Q. apply Qeq_eqR in Q. rewrite Q2R_plus, Q2R_inject, RMicromega.Q2R_0 in Q. lra. }
    rewrite Q2R_mult, !Q2R_plus, !Q2R_inject. field. lra.
  Qed.

  (** A query: the words of the topics stay as they are. *)
  Context (kv : nat -> nat -> Z) (k_ : nat -> Z).
  Definition word_share (k t : nat) : R := ((IZR (kv k t) + Q2R (b t)) / (IZR (k_ k) + Q2R (qsum b (seq 0 T))))%R.
  Lemma given_weights v A : valid lens v -> In A (assignments K N) -> (forall k, k < K -> (0 < inject_Z (k_ k) + qsum b (seq 0 T))%Q) ->
    exists C, forall k, k < K ->
      given_words g D K alpha word_share (corpus_tokens w lens) (put (place lens v) k A) =
      (C * Q2R (cq T w lens true kv k_ a b v A k))%R.
  Proof.
    intros Hv HA Pk. destruct (valid_place lens v Hv) as [Hn Hin]. apply in_assignments in HA as [LA _].
    assert (PA : forall k, k < K -> (0 < alpha k)%R) by (intros; apply Q2R_pos; auto).
    destruct (split_token w lens A (fst v) (place lens v) LA (proj1 Hv) Hin) as (tk1 & tk2 & a1 & a2 & E & L & EP & ED & EW).
    set (n := place lens v) in *. set (d := fst v) in *.
    set (S := vsum K (fun k => alpha k + n_doc (tk1 ++ tk2) (a1 ++ a2) d k)%R).
    destruct (Nat.eq_dec K 0) as [->|HK]; [exists 1%R; intros; lia|].
    assert (PS : (0 < S)%R).
    { apply vsum_pos; [lia|]. intros i Hi. specialize (PA i Hi). pose proof (n_doc_nonneg (tk1 ++ tk2) (a1 ++ a2) d i). lra. }
    set (phi := fun x : token * nat => let '((_, t), k) := x in word_share k t).
    exists (exp (docs_part g D K alpha (tk1 ++ tk2) (a1 ++ a2)) / S * rprod (map phi (combine (tk1 ++ tk2) (a1 ++ a2))))%R.
    intros k Hk. rewrite EP, E. destruct (put_counts tk1 (d, w n) tk2 a1 k a2 L) as [C1 _].
    unfold given_words. change (fold_right Rmult 1%R) with rprod.
    change (fun x : token * nat => let '((_, t), k) := x in word_share k t) with phi.
    rewrite combine_app by exact L. cbn [combine]. rewrite rprod_front, <- combine_app by exact L.
    assert (EX : vsum D (fun d0 => lnB g K (fun k0 => alpha k0 + n_doc (tk1 ++ (d, w n) :: tk2) (a1 ++ k :: a2) d0 k0) - lnB g K alpha)%R =
                 docs_part g D K alpha ((d, w n) :: tk1 ++ tk2) (k :: a1 ++ a2)).
    { apply vsum_ext. intros i _. f_equal. apply lnB_ext. intros j _. rewrite C1. reflexivity. }
    rewrite EX, (docs_cons g D K alpha d (w n) (tk1 ++ tk2) k (a1 ++ a2) G PA (proj1 Hv) Hk), exp_plus. fold S.
    specialize (PA k Hk). pose proof (n_doc_nonneg (tk1 ++ tk2) (a1 ++ a2) d k).
    rewrite exp_frac by lra. rewrite ED. change (phi (d, w n, k)) with (word_share k (w n)). unfold word_share at 1.
    specialize (Pk k Hk). pose proof (Q2R_pos _ Pk) as PkR. rewrite Q2R_plus, Q2R_inject in PkR.
    unfold cq, cond, conditional_fixed. fold n. change (fst v) with d.
    rewrite Q2R_div.
    2:{ intros Q. apply Qeq_eqR in Q. rewrite Q2R_plus, Q2R_inject, RMicromega.Q2R_0 in Q. lra. }
    rewrite Q2R_mult, !Q2R_plus, !Q2R_inject. match goal with |- (_ * (_ * rprod ?l1))%R = (_ * rprod ?l2 * _)%R => change l2 with l1; generalize (rprod l1) end. intros Z. field. lra.
  Qed.
End Laws.

(** ** Sweeps *)
Definition order (lens : list nat) (start : nat -> nat -> nat) (sw : nat) : list (nat * nat) :=
  flat_map (fun d => map (pair d) (visits lens start sw d)) (seq 0 (length lens)).
Lemma visits_perm lens start sw d : Permutation (visits lens start sw d) (seq 0 (nth d lens 0)).
Proof. unfold visits, len_. apply positions_perm. Qed.
Lemma order_valid lens start sw v : In v (order lens start sw) <-> valid lens v.
Proof.
  unfold order. rewrite in_flat_map. split.
  - intros (d & Hd & H). apply in_map_iff in H as (i & <- & Hi). apply in_seq in Hd. split; cbn [fst snd]; [lia|].
    apply (Permutation_in _ (visits_perm lens start sw d)) in Hi. apply in_seq in Hi. lia.
  - destruct v as [d i]. intros [Hd Hi]. cbn [fst snd] in *. exists d. split; [apply in_seq; lia|]. apply in_map.
    apply (Permutation_in _ (Permutation_sym (visits_perm lens start sw d))). apply in_seq. lia.
Qed.
Lemma order_length lens start sw : length (order lens start sw) = total lens.
Proof.
  unfold order. rewrite <- (seq_length (total lens) 0), seq_docs. unfold doc_tokens.
  induction (seq 0 (length lens)) as [|d l IH]; [reflexivity|]. cbn [flat_map]. rewrite !app_length, IH, map_length, seq_length.
  rewrite (Permutation_length (visits_perm lens start sw d)), seq_length. reflexivity.
Qed.
Lemma order_covers lens start sw n : n < total lens -> In n (map (place lens) (order lens start sw)).
Proof.
  intros Hn. assert (H : In n (seq 0 (total lens))) by (apply in_seq; lia). rewrite seq_docs in H. apply in_flat_map in H as (d & Hd & H).
  apply in_seq in Hd. apply in_seq in H. apply in_map_iff. exists (d, n - offset lens d). split; [unfold place; cbn [fst snd]; lia|].
  apply order_valid. split; cbn [fst snd]; lia.
Qed.
Definition all_visits (lens : list nat) : list (nat * nat) := flat_map (fun d => map (pair d) (seq 0 (nth d lens 0))) (seq 0 (length lens)).
Lemma all_visits_valid lens v : In v (all_visits lens) <-> valid lens v.
Proof.
  unfold all_visits. rewrite in_flat_map. split.
  - intros (d & Hd & H). apply in_map_iff in H as (i & <- & Hi). apply in_seq in Hd. apply in_seq in Hi. split; cbn [fst snd]; lia.
  - destruct v as [d i]. intros [Hd Hi]. cbn [fst snd] in *. exists d. split; [apply in_seq; lia|]. apply in_map, in_seq. lia.
Qed.

(** A sweep of the sampler is its visits in that order, each with its own number. *)
Definition draws (lens : list nat) (u : nat -> nat -> nat -> Q) (sw : nat) : list Q :=
  flat_map (fun d => map (u sw d) (seq 0 (nth d lens 0))) (seq 0 (length lens)).
Lemma fold_combine_map {A B C S} (f : S -> A * B -> S) (g : C -> A) (h : nat -> B) (l : list C) m s : length l = length m ->
  fold_left f (combine (map g l) (map h m)) s = fold_left (fun s x => f s (g (snd x), h (fst x))) (combine m l) s.
Proof.
  revert m s. induction l as [|c l IH]; intros [|i m] s L; try discriminate L; [reflexivity|]. cbn. apply IH. injection L; auto.
Qed.
Lemma flat_map_combine {A B} (F : nat -> list A) (H : nat -> list B) l : (forall d, In d l -> length (F d) = length (H d)) ->
  combine (flat_map F l) (flat_map H l) = flat_map (fun d => combine (F d) (H d)) l.
Proof.
  induction l as [|d l IH]; intros E; [reflexivity|]. cbn [flat_map]. rewrite combine_app by (apply E; left; reflexivity).
  f_equal. apply IH. intros; apply E; right; assumption.
Qed.
Lemma sweep_visits K T w lens a b isQuery special start u sw s :
  sweep_docs K T w lens a b isQuery special start u sw s =
  fold_left (fun rs vr => do s <- rs; visit K T w a b isQuery special (fst (fst vr)) (place lens (fst vr)) (snd vr) s)
            (combine (order lens start sw) (draws lens u sw)) (Ok s).
Proof.
  unfold order, draws. rewrite flat_map_combine.
  2:{ intros d _. rewrite !map_length, seq_length, (Permutation_length (visits_perm lens start sw d)), seq_length. reflexivity. }
  unfold sweep_docs.
  set (V := fun rs vr => do s <- rs; visit K T w a b isQuery special (fst (fst vr)) (place lens (fst vr)) (snd vr) s).
  set (F := fun d => combine (map (pair d) (visits lens start sw d)) (map (u sw d) (seq 0 (nth d lens 0)))).
  assert (DS : forall d t, doc_sweep K T w lens a b isQuery special start u sw d (offset lens d) t = fold_left V (F d) (Ok t)).
  { intros d t. unfold doc_sweep, F, V. rewrite fold_combine_map.
    - unfold len_. cbn [fst snd]. reflexivity.
    - rewrite (Permutation_length (visits_perm lens start sw d)). reflexivity. }
  assert (VR : forall l e, fold_left V l (Raise e) = Raise e) by (intros l e; apply fold_raise).
  assert (GEN : forall m, fold_left (fun ros d => do os <- ros; do s' <- doc_sweep K T w lens a b isQuery special start u sw d (fst os) (snd os);
            Ok (fst os + len_ lens d, s')) (seq 0 m) (Ok (0, s)) = (do t <- fold_left V (flat_map F (seq 0 m)) (Ok s); Ok (offset lens m, t))).
  { induction m as [|m IH]; [reflexivity|]. rewrite seq_S, fold_left_app, IH, flat_map_app, fold_left_app. cbn [fold_left flat_map Nat.add].
    rewrite app_nil_r. destruct (fold_left V (flat_map F (seq 0 m)) (Ok s)) as [t|e]; cbn [bind fst snd]; [|rewrite VR; reflexivity].
    rewrite DS. destruct (fold_left V (F m) (Ok t)) as [t'|e]; cbn [bind]; [|reflexivity]. rewrite offset_S. reflexivity. }
  rewrite GEN. destruct (fold_left V (flat_map F (seq 0 (length lens))) (Ok s)); reflexivity.
Qed.

(** ** The chain *)
Section Chains.
  Context (K T : nat) (w : nat -> nat) (lens : list nat) (isQuery : bool).
  Context (bkv : nat -> nat -> Z) (bk : nat -> Z) (a b : nat -> Q) (special : gst -> nat -> nat -> Z).
  Notation N := (total lens).
  Notation q := (gq K T w lens isQuery bkv bk a b).
  Notation mv := (gmoves K T w lens isQuery bkv bk a b special).
  Hypothesis HK0 : 0 < K.
  Hypothesis HK : K <= 256.
  Hypothesis Hspecial : forall s d v, (special s d v < Z.of_nat K)%Z.
  Hypothesis HP : proper K T w lens bkv bk a b.
  Context (pi : list nat -> R).
  Hypothesis Hfit : forall v, valid lens v -> fits K N (place lens) q pi v.

  Lemma chain_share vs : (forall v, In v vs -> valid lens v) -> forall v, In v vs -> forall A A', In A (assignments K N) -> In A' (assignments K N) ->
    share (fun r => mv v A r A') (prob (place lens) q v A A').
  Proof. intros H v Hv A A' HA HA'. apply visit_share; auto. Qed.
  Lemma chain_exists vs mu : (forall v, In v vs -> valid lens v) -> exists mu', after K N mv vs mu mu'.
  Proof. intros H. eexists. apply (after_exists K N (place lens) q). apply chain_share, H. Qed.
  Lemma chain_kept vs mu : (forall v, In v vs -> valid lens v) -> after K N mv vs pi mu -> forall A, In A (assignments K N) -> mu A = pi A.
  Proof.
    intros H AF A HA. rewrite (after_steps K N (place lens) q mv vs pi mu (chain_share vs H) AF A HA).
    apply steps_fit; [exact HK0| |exact HA]. intros v Hv. split; [apply valid_place, H, Hv|apply Hfit, H, Hv].
  Qed.

  Hypothesis Hpos : forall v A k, valid lens v -> In A (assignments K N) -> k < K -> (0 < q v A k)%R.
  Hypothesis Hpi : forall A, In A (assignments K N) -> (0 <= pi A)%R.
  Hypothesis Tpi : BoundProofs.total K N pi = 1%R.
  Lemma chain_floor : exists eps, (0 < eps)%R /\ (eps <= 1)%R /\ forall v A k, valid lens v -> In A (assignments K N) -> k < K -> (eps <= q v A k)%R.
  Proof.
    destruct (positive_min (fun x => q (fst (fst x)) (snd (fst x)) (snd x)) (list_prod (list_prod (all_visits lens) (assignments K N)) (seq 0 K))) as (e & E0 & E1 & E2).
    - intros [[v A] k] H. apply in_prod_iff in H as [H Hk]. apply in_prod_iff in H as [Hv HA]. apply in_seq in Hk. cbn [fst snd].
      apply Hpos; [apply all_visits_valid, Hv|exact HA|lia].
    - exists e. split; [exact E0|]. split; [exact E1|]. intros v A k Hv HA Hk. apply (E2 (v, A, k)). apply in_prod_iff. split; [|apply in_seq; lia].
      apply in_prod_iff. split; [apply all_visits_valid, Hv|exact HA].
  Qed.
  Lemma in_orders start i m v : In v (flat_map (order lens start) (seq i m)) -> valid lens v.
  Proof. clear. intros H. apply in_flat_map in H as (sw & _ & H). eapply order_valid, H. Qed.
  Lemma chain_forgets e : (0 < e)%R -> exists n0, forall start n A0 mu, n0 <= n -> In A0 (assignments K N) ->
    after K N mv (flat_map (order lens start) (seq 0 n)) (certainly A0) mu -> (apart K N mu pi < e)%R.
  Proof.
    intros He. destruct chain_floor as (eps & E0 & E1 & E2).
    assert (PE : (0 < eps ^ N)%R) by (apply pow_lt; exact E0).
    assert (PE1 : (eps ^ N <= 1)%R) by (rewrite <- (pow1 N); apply pow_incr; lra).
    destruct (pow_small (1 - eps ^ N) (e / 3)) as (n0 & Hn0); [lra|lra|lra|].
    exists n0. intros start n A0 mu Hn HA AF.
    assert (V : forall v, In v (flat_map (order lens start) (seq 0 n)) -> valid lens v) by (apply in_orders).
    pose proof (after_steps K N (place lens) q mv _ _ _ (chain_share _ V) AF) as S.
    pose proof (rounds_forget K N HK0 (place lens) q (order lens start) eps N (certainly A0) pi E0 E1) as F.
    specialize (F ltac:(intros i v Hv; apply gq_legal; [exact HP|]; eapply order_valid, Hv)).
    specialize (F ltac:(intros i v A k Hv HA' Hk; apply E2; [eapply order_valid, Hv|exact HA'|exact Hk])).
    specialize (F ltac:(intros; apply order_covers; assumption) ltac:(intros; apply order_length)).
    specialize (F ltac:(rewrite certainly_total by exact HA; symmetry; exact Tpi) n).
    assert (D2 : (dist1 K N (certainly A0) pi <= 2)%R).
    { unfold dist1. apply Rle_trans with (BoundProofs.total K N (fun A => certainly A0 A + pi A))%R.
      - apply total_le. intros A HA'. pose proof (certainly_nonneg A0 A). pose proof (Hpi A HA'). apply Rabs_le. lra.
      - rewrite total_plus, certainly_total, Tpi by exact HA. lra. }
    assert (EQ : apart K N mu pi = dist1 K N (steps K N (place lens) q (flat_map (order lens start) (seq 0 n)) (certainly A0)) (steps K N (place lens) q (flat_map (order lens start) (seq 0 n)) pi)).
    { apply total_ext_in. intros A HA'. rewrite (S A HA').
      rewrite (steps_fit K N HK0 (place lens) q pi (flat_map (order lens start) (seq 0 n))); [reflexivity| |exact HA'].
      intros v Hv. split; [apply valid_place, V, Hv|apply Hfit, V, Hv]. }
    rewrite EQ. eapply Rle_lt_trans; [exact F|]. specialize (Hn0 n Hn).
    assert (0 <= (1 - eps ^ N) ^ n)%R by (apply pow_le; lra).
    assert ((1 - eps ^ N) ^ n * dist1 K N (certainly A0) pi <= (1 - eps ^ N) ^ n * 2)%R by (apply Rmult_le_compat_l; lra). lra.
  Qed.

  (** The ends of the rounds are the samples that are kept. *)
  Definition rounds (start : nat -> nat -> nat) (thin m : nat) : list (list (nat * nat)) :=
    map (fun i => flat_map (order lens start) (seq (i * thin) thin)) (seq 0 m).
  Lemma rounds_valid start thin m v : In v (concat (rounds start thin m)) -> valid lens v.
  Proof.
    clear. intros H. apply in_concat in H as (vs & Hvs & Hv). apply in_map_iff in Hvs as (i & <- & _). eapply in_orders, Hv.
  Qed.
  Lemma flat_map_length' {X Y} (f : X -> list Y) l c : (forall x, In x l -> length (f x) = c) -> length (flat_map f l) = length l * c.
  Proof.
    clear. induction l as [|x l IH]; intros H; [reflexivity|]. cbn [flat_map length]. rewrite app_length, (H x (or_introl eq_refl)), IH; [lia|].
    intros; apply H; right; assumption.
  Qed.
  Lemma chain_mixes thin : 0 < thin -> exists c, (0 < c)%R /\ (c <= 1)%R /\ forall start m vs, In vs (rounds start thin m) -> mixes K N (place lens) q pi c vs.
  Proof.
    intros Ht. destruct chain_floor as (eps & E0 & E1 & E2). exists (eps ^ (thin * N))%R. split; [apply pow_lt, E0|].
    split; [rewrite <- (pow1 (thin * N)); apply pow_incr; lra|]. intros start m vs Hvs. apply in_map_iff in Hvs as (i & <- & _).
    assert (V : forall v, In v (flat_map (order lens start) (seq (i * thin) thin)) -> valid lens v) by apply in_orders.
    assert (LG : forall v, In v (flat_map (order lens start) (seq (i * thin) thin)) -> legal K N (place lens) q v)
      by (intros; apply gq_legal; [exact HP|apply V; assumption]).
    split; [exact LG|]. split.
    - intros A A' HA HA'.
      replace (thin * N) with (length (flat_map (order lens start) (seq (i * thin) thin)))
        by (rewrite (flat_map_length' _ _ N) by (intros; apply order_length); rewrite seq_length; reflexivity).
      apply steps_reach; [exact HK0|exact HA'|lra|exact LG|intros; apply E2; [apply V|..]; assumption|exact HA|].
      apply (puts_all K N); [exact HA|exact HA'|intros; apply valid_place, V; assumption|].
      intros n Hn. apply in_map_iff. pose proof (order_covers lens start (i * thin) n Hn) as C. apply in_map_iff in C as (v & Ev & Hv).
      exists v. split; [exact Ev|]. apply in_flat_map. exists (i * thin). split; [apply in_seq; lia|exact Hv].
    - apply steps_fit; [exact HK0|]. intros v Hv. split; [apply valid_place, V, Hv|apply Hfit, V, Hv].
  Qed.
  Lemma chain_averages thin : 0 < thin -> exists C, forall start m A0 f x, 0 < m -> In A0 (assignments K N) ->
    (forall A, In A (assignments K N) -> (0 <= f A <= 1)%R) ->
    expects K N mv (rounds start thin m) A0 (fun p => (average f p - mean K N pi f) * (average f p - mean K N pi f))%R x -> (x <= C / INR m)%R.
  Proof.
    intros Ht. destruct (chain_mixes thin Ht) as (c & C0 & C1 & CM). exists (1 + 2 / c)%R. intros start m A0 f x Hm HA Hf EX.
    rewrite (expects_expv K N (place lens) q mv _ _ _ _ (chain_share (concat (rounds start thin m)) (rounds_valid start thin m)) EX).
    pose proof (mean_square K N HK0 (place lens) q pi c 1 f (rounds start thin m) A0 Hpi Tpi C0 C1 Hf (CM start m) HA) as S.
    assert (EL : length (rounds start thin m) = m) by (unfold rounds; rewrite map_length, seq_length; reflexivity).
    rewrite EL, !Rmult_1_l in S. apply S. unfold rounds. destruct m; [lia|discriminate].
  Qed.
  Lemma chain_expects start thin m A0 F : exists x, expects K N mv (rounds start thin m) A0 F x.
  Proof. apply (expects_exists K N (place lens) q). intros v Hv. eapply chain_share; [|exact Hv]. apply rounds_valid. Qed.
End Chains.

(** ** What is recorded *)
Lemma n_doc_topics K w lens s d k : assigned lens K (g_z s) -> d < length lens -> n_doc (corpus_tokens w lens) (topics lens s) d k = IZR (doc_topic lens (g_z s) d k).
Proof.
  intros _ Hd. unfold n_doc. rewrite tokens_pairs, (list_pairs lens (topics lens s)) by apply topics_length. rewrite combine_maps, map_map.
  rewrite (rsum_ext _ (fun p => if fst p =? d then (if g_z s (snd p) =? k then 1 else 0) else 0)%R).
  - rewrite (rsum_pairs_doc lens d (fun n => if g_z s n =? k then 1 else 0)%R Hd). apply rsum_count.
  - intros [d' n] H. apply pairs_in in H as [H1 H2]. cbn [fst snd].
    assert (n < total lens) by (apply in_seq in H2; pose proof (offset_end lens d' H1); lia).
    rewrite nth_topics by assumption. destruct (d' =? d); reflexivity.
Qed.
Lemma n_word_topics w lens s k t : n_word (corpus_tokens w lens) (topics lens s) k t = IZR (topic_word w lens (g_z s) k t).
Proof.
  unfold n_word. rewrite tokens_pairs, (list_pairs lens (topics lens s)) by apply topics_length. rewrite combine_maps, map_map.
  rewrite (rsum_ext _ (fun p => (fun n => if (g_z s n =? k) && (w n =? t) then 1 else 0) (snd p))%R).
  - rewrite (rsum_pairs_all lens (fun n => if (g_z s n =? k) && (w n =? t) then 1 else 0)%R). apply rsum_count.
  - intros [d' n] H. apply pairs_in in H as [H1 H2]. cbn [fst snd].
    assert (n < total lens) by (apply in_seq in H2; pose proof (offset_end lens d' H1); lia).
    rewrite nth_topics by assumption. rewrite andb_comm. reflexivity.
Qed.
