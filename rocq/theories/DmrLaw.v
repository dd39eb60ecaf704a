(** * The sampler of Dirichlet-multinomial regression as a chain: the chain of StationGibbs
    with a prior over topics for every document. *)
From Coq Require Import List ZArith QArith Qreals Reals Arith Bool Lra Lia Permutation.
From Verif Require Import Base RealModel RealProofs MixModel MixProofs VbModel VbProofs BoundSpec BoundProofs BoundMore StationSpec StationProofs.
From Verif Require Import EvalSpec EvalProofs CvbModel CvbProofs CvbMore GibbsModel GibbsSpec GibbsProofs GibbsMore GibbsRuns StationGibbs DmrModel DmrLawSpec.
Import ListNotations.
Open Scope nat_scope.

Definition rmoves K T w lens isQuery bkv bk (al : nat -> nat -> Q) b special (v : nat * nat) : list nat -> Q -> list nat -> Prop :=
  gmoves K T w lens isQuery bkv bk (al (fst v)) b special v.
Definition rq K T w lens isQuery bkv bk (al : nat -> nat -> Q) b (v : nat * nat) : list nat -> nat -> R :=
  gq K T w lens isQuery bkv bk (al (fst v)) b v.

(** ** The chain *)
Section Chains.
  Context (K T : nat) (w : nat -> nat) (lens : list nat) (isQuery : bool).
  Context (bkv : nat -> nat -> Z) (bk : nat -> Z) (al : nat -> nat -> Q) (b : nat -> Q) (special : gst -> nat -> nat -> Z).
  Notation N := (total lens).
  Notation q := (rq K T w lens isQuery bkv bk al b).
  Notation mv := (rmoves K T w lens isQuery bkv bk al b special).
  Hypothesis HK0 : 0 < K.
  Hypothesis HK : K <= 256.
  Hypothesis Hspecial : forall s d v, (special s d v < Z.of_nat K)%Z.
  Hypothesis HP : forall d, d < length lens -> proper K T w lens bkv bk (al d) b.
  Context (pi : list nat -> R).
  Hypothesis Hfit : forall v, valid lens v -> fits K N (place lens) q pi v.

  Lemma rq_legal v : valid lens v -> legal K N (place lens) q v.
  Proof. clear Hfit pi Hspecial HK special. intros Hv. apply (gq_legal K T w lens isQuery bkv bk (al (fst v)) b (HP _ (proj1 Hv)) v Hv). Qed.
  Lemma rchain_share vs : (forall v, In v vs -> valid lens v) -> forall v, In v vs -> forall A A', In A (assignments K N) -> In A' (assignments K N) ->
    share (fun r => mv v A r A') (prob (place lens) q v A A').
  Proof. intros H v Hv A A' HA HA'. unfold rmoves, rq. apply (visit_share K T w lens isQuery bkv bk (al (fst v)) b special); auto. apply HP, H, Hv. Qed.
  Lemma rchain_exists vs mu : (forall v, In v vs -> valid lens v) -> exists mu', after K N mv vs mu mu'.
  Proof. intros H. eexists. apply (after_exists K N (place lens) q). apply rchain_share, H. Qed.
  Lemma rchain_kept vs mu : (forall v, In v vs -> valid lens v) -> after K N mv vs pi mu -> forall A, In A (assignments K N) -> mu A = pi A.
  Proof.
    intros H AF A HA. rewrite (after_steps K N (place lens) q mv vs pi mu (rchain_share vs H) AF A HA).
    apply steps_fit; [exact HK0| |exact HA]. intros v Hv. split; [apply valid_place, H, Hv|apply Hfit, H, Hv].
  Qed.

  Hypothesis Hpos : forall v A k, valid lens v -> In A (assignments K N) -> k < K -> (0 < q v A k)%R.
  Hypothesis Hpi : forall A, In A (assignments K N) -> (0 <= pi A)%R.
  Hypothesis Tpi : BoundProofs.total K N pi = 1%R.
  Lemma rchain_floor : exists eps, (0 < eps)%R /\ (eps <= 1)%R /\ forall v A k, valid lens v -> In A (assignments K N) -> k < K -> (eps <= q v A k)%R.
  Proof.
    destruct (positive_min (fun x => q (fst (fst x)) (snd (fst x)) (snd x)) (list_prod (list_prod (all_visits lens) (assignments K N)) (seq 0 K))) as (e & E0 & E1 & E2).
    - intros [[v A] k] H. apply in_prod_iff in H as [H Hk]. apply in_prod_iff in H as [Hv HA]. apply in_seq in Hk. cbn [fst snd].
      apply Hpos; [apply all_visits_valid, Hv|exact HA|lia].
    - exists e. split; [exact E0|]. split; [exact E1|]. intros v A k Hv HA Hk. apply (E2 (v, A, k)). apply in_prod_iff. split; [|apply in_seq; lia].
      apply in_prod_iff. split; [apply all_visits_valid, Hv|exact HA].
  Qed.
  Lemma rchain_forgets e : (0 < e)%R -> exists n0, forall start n A0 mu, n0 <= n -> In A0 (assignments K N) ->
    after K N mv (flat_map (order lens start) (seq 0 n)) (certainly A0) mu -> (apart K N mu pi < e)%R.
  Proof.
    intros He. destruct rchain_floor as (eps & E0 & E1 & E2).
    assert (PE : (0 < eps ^ N)%R) by (apply pow_lt; exact E0).
    assert (PE1 : (eps ^ N <= 1)%R) by (rewrite <- (pow1 N); apply pow_incr; lra).
    destruct (pow_small (1 - eps ^ N) (e / 3)) as (n0 & Hn0); [lra|lra|lra|].
    exists n0. intros start n A0 mu Hn HA AF.
    assert (V : forall v, In v (flat_map (order lens start) (seq 0 n)) -> valid lens v) by (apply in_orders).
    pose proof (after_steps K N (place lens) q mv _ _ _ (rchain_share _ V) AF) as S.
    pose proof (rounds_forget K N HK0 (place lens) q (order lens start) eps N (certainly A0) pi E0 E1) as F.
    specialize (F ltac:(intros i v Hv; apply rq_legal; eapply order_valid, Hv)).
    specialize (F ltac:(intros i v A k Hv HA' Hk; apply E2; [eapply order_valid, Hv|exact HA'|exact Hk])).
    specialize (F ltac:(intros; apply order_covers; assumption) ltac:(intros; apply order_length)).
    specialize (F ltac:(rewrite certainly_total by exact HA; symmetry; exact Tpi) n).
    assert (D2 : (dist1 K N (certainly A0) pi <= 2)%R).
    { unfold dist1. apply Rle_trans with (BoundProofs.total K N (fun A => certainly A0 A + pi A))%R.
      - apply total_le. intros A HA'. pose proof (certainly_nonneg A0 A). pose proof (Hpi A HA'). apply Rabs_le. lra.
      - rewrite total_plus, certainly_total, Tpi by exact HA. lra. }
    assert (EQ : apart K N mu pi = dist1 K N (steps K N (place lens) q (flat_map (order lens start) (seq 0 n)) (certainly A0)) (steps K N (place lens) q (flat_map (order lens start) (seq 0 n)) pi)).
    { apply total_ext_in. intros A HA'. rewrite (S A HA').
      rewrite (steps_fit K N HK0 (place lens) q pi (flat_map (order lens start) (seq 0 n))); [reflexivity| |exact HA'].
      intros v Hv. split; [apply valid_place, V, Hv|apply Hfit, V, Hv]. }
    rewrite EQ. eapply Rle_lt_trans; [exact F|]. specialize (Hn0 n Hn).
    assert (0 <= (1 - eps ^ N) ^ n)%R by (apply pow_le; lra).
    assert ((1 - eps ^ N) ^ n * dist1 K N (certainly A0) pi <= (1 - eps ^ N) ^ n * 2)%R by (apply Rmult_le_compat_l; lra). lra.
  Qed.

  Lemma rchain_mixes thin : 0 < thin -> exists c, (0 < c)%R /\ (c <= 1)%R /\ forall start m vs, In vs (rounds lens start thin m) -> mixes K N (place lens) q pi c vs.
  Proof.
    intros Ht. destruct rchain_floor as (eps & E0 & E1 & E2). exists (eps ^ (thin * N))%R. split; [apply pow_lt, E0|].
    split; [rewrite <- (pow1 (thin * N)); apply pow_incr; lra|]. intros start m vs Hvs. apply in_map_iff in Hvs as (i & <- & _).
    assert (V : forall v, In v (flat_map (order lens start) (seq (i * thin) thin)) -> valid lens v) by apply in_orders.
    assert (LG : forall v, In v (flat_map (order lens start) (seq (i * thin) thin)) -> legal K N (place lens) q v)
      by (intros; apply rq_legal, V; assumption).
    split; [exact LG|]. split.
    - intros A A' HA HA'.
      replace (thin * N) with (length (flat_map (order lens start) (seq (i * thin) thin)))
        by (rewrite (flat_map_length' _ _ N) by (intros; apply order_length); rewrite seq_length; reflexivity).
      apply steps_reach; [exact HK0|exact HA'|lra|exact LG|intros; apply E2; [apply V|..]; assumption|exact HA|].
      apply (puts_all K N); [exact HA|exact HA'|intros; apply valid_place, V; assumption|].
      intros n Hn. apply in_map_iff. pose proof (order_covers lens start (i * thin) n Hn) as C. apply in_map_iff in C as (v & Ev & Hv).
      exists v. split; [exact Ev|]. apply in_flat_map. exists (i * thin). split; [apply in_seq; lia|exact Hv].
    - apply steps_fit; [exact HK0|]. intros v Hv. split; [apply valid_place, V, Hv|apply Hfit, V, Hv].
  Qed.
  Lemma rchain_averages thin : 0 < thin -> exists C, forall start m A0 f x, 0 < m -> In A0 (assignments K N) ->
    (forall A, In A (assignments K N) -> (0 <= f A <= 1)%R) ->
    expects K N mv (rounds lens start thin m) A0 (fun p => (average f p - mean K N pi f) * (average f p - mean K N pi f))%R x -> (x <= C / INR m)%R.
  Proof.
    intros Ht. destruct (rchain_mixes thin Ht) as (c & C0 & C1 & CM). exists (1 + 2 / c)%R. intros start m A0 f x Hm HA Hf EX.
    rewrite (expects_expv K N (place lens) q mv _ _ _ _ (rchain_share (concat (rounds lens start thin m)) (rounds_valid lens start thin m)) EX).
    pose proof (mean_square K N HK0 (place lens) q pi c 1 f (rounds lens start thin m) A0 Hpi Tpi C0 C1 Hf (CM start m) HA) as S.
    assert (EL : length (rounds lens start thin m) = m) by (unfold rounds; rewrite map_length, seq_length; reflexivity).
    rewrite EL, !Rmult_1_l in S. apply S. unfold rounds. destruct m; [lia|discriminate].
  Qed.
  Lemma rchain_expects start thin m A0 F : exists x, expects K N mv (rounds lens start thin m) A0 F x.
  Proof. apply (expects_exists K N (place lens) q). intros v Hv. eapply rchain_share; [|exact Hv]. apply rounds_valid. Qed.
End Chains.


(** ** The laws *)
(** The part of the topics in the documents. *)
Definition rdocs (g : R -> R) (D K : nat) (alpha : nat -> vec) (tk : list token) (a : list nat) : R :=
  vsum D (fun d => lnB g K (fun k => alpha d k + n_doc tk a d k) - lnB g K (alpha d))%R.
Lemma rdocs_cons g D K (alpha : nat -> vec) d t tk k a : gamma_like g -> (forall k, k < K -> (0 < alpha d k)%R) -> d < D -> k < K ->
  rdocs g D K alpha ((d, t) :: tk) (k :: a) =
  (rdocs g D K alpha tk a + ln ((alpha d k + n_doc tk a d k) / vsum K (fun k => alpha d k + n_doc tk a d k)))%R.
Proof.
  intros G PA Hd Hk. unfold rdocs.
  rewrite (vsum_bump D (fun d0 => lnB g K (fun k0 => alpha d0 k0 + n_doc tk a d0 k0) - lnB g K (alpha d0))%R
    (fun d0 => lnB g K (fun k0 => alpha d0 k0 + n_doc ((d, t) :: tk) (k :: a) d0 k0) - lnB g K (alpha d0))%R d
    (ln ((alpha d k + n_doc tk a d k) / vsum K (fun k => alpha d k + n_doc tk a d k)))%R Hd); [reflexivity| |].
  - rewrite (lnB_bump g G K (fun k0 => alpha d k0 + n_doc tk a d k0)%R _ k Hk).
    + ring.
    + intros i Hi. specialize (PA i Hi). pose proof (n_doc_nonneg tk a d i). lra.
    + unfold n_doc. cbn [combine map rsum]. rewrite !Nat.eqb_refl. cbn [andb]. ring.
    + intros i Hi N. unfold n_doc. cbn [combine map rsum]. rewrite (proj2 (Nat.eqb_neq k i)) by congruence. rewrite andb_false_r. ring.
  - intros i Hi N. f_equal. apply lnB_ext. intros j Hj. f_equal. unfold n_doc. cbn [combine map rsum].
    rewrite (proj2 (Nat.eqb_neq d i)) by congruence. cbn [andb]. ring.
Qed.
(** The part of the words in the topics. *)
Definition rwords (g : R -> R) (K T : nat) (eta : vec) (tk : list token) (a : list nat) : R :=
  vsum K (fun k => lnB g T (fun t => eta t + n_word tk a k t) - lnB g T eta)%R.
Lemma rwords_cons g K T (eta : vec) d t tk k a : gamma_like g -> (forall t, t < T -> (0 < eta t)%R) -> t < T -> k < K ->
  rwords g K T eta ((d, t) :: tk) (k :: a) =
  (rwords g K T eta tk a + ln ((eta t + n_word tk a k t) / vsum T (fun t => eta t + n_word tk a k t)))%R.
Proof.
  intros G PE Ht Hk. unfold rwords.
  rewrite (vsum_bump K (fun k0 => lnB g T (fun t0 => eta t0 + n_word tk a k0 t0) - lnB g T eta)%R
    (fun k0 => lnB g T (fun t0 => eta t0 + n_word ((d, t) :: tk) (k :: a) k0 t0) - lnB g T eta)%R k
    (ln ((eta t + n_word tk a k t) / vsum T (fun t => eta t + n_word tk a k t)))%R Hk); [reflexivity| |].
  - rewrite (lnB_bump g G T (fun t0 => eta t0 + n_word tk a k t0)%R _ t Ht).
    + ring.
    + intros i Hi. specialize (PE i Hi). pose proof (n_word_nonneg tk a k i). lra.
    + unfold n_word. cbn [combine map rsum]. rewrite !Nat.eqb_refl. cbn [andb]. ring.
    + intros i Hi N. unfold n_word. cbn [combine map rsum]. rewrite (proj2 (Nat.eqb_neq t i)) by congruence. cbn [andb]. ring.
  - intros i Hi N. f_equal. apply lnB_ext. intros j Hj. f_equal. unfold n_word. cbn [combine map rsum].
    rewrite (proj2 (Nat.eqb_neq k i)) by congruence. rewrite andb_false_r. ring.
Qed.
Lemma rjoint_cons g D K T (alpha : nat -> vec) (eta : vec) d t tk k a : gamma_like g -> (forall k, k < K -> (0 < alpha d k)%R) ->
  (forall t, t < T -> (0 < eta t)%R) -> d < D -> t < T -> k < K ->
  rjoint g D K T alpha eta ((d, t) :: tk) (k :: a) =
  (rjoint g D K T alpha eta tk a + ln ((alpha d k + n_doc tk a d k) / vsum K (fun k => alpha d k + n_doc tk a d k)) +
   ln ((eta t + n_word tk a k t) / vsum T (fun t => eta t + n_word tk a k t)))%R.
Proof.
  intros G PA PE Hd Ht Hk. pose proof (rdocs_cons g D K alpha d t tk k a G PA Hd Hk) as E1.
  pose proof (rwords_cons g K T eta d t tk k a G PE Ht Hk) as E2. unfold rdocs, rwords in E1, E2. unfold rjoint. rewrite E1, E2. ring.
Qed.
Lemma rjoint_ext g D K T alpha eta tk a tk' a' :
  (forall d k, n_doc tk a d k = n_doc tk' a' d k) -> (forall k t, n_word tk a k t = n_word tk' a' k t) ->
  rjoint g D K T alpha eta tk a = rjoint g D K T alpha eta tk' a'.
Proof.
  intros H1 H2. unfold rjoint. f_equal; apply vsum_ext; intros i _; f_equal; apply lnB_ext; intros j _; f_equal; auto.
Qed.

Section RLaws.
  Context (K T : nat) (w : nat -> nat) (lens : list nat) (al : nat -> nat -> Q) (b : nat -> Q) (g : R -> R).
  Context (G : gamma_like g) (Pa : forall d j, d < length lens -> j < K -> (0 < al d j)%Q).
  Notation N := (total lens).
  Notation D := (length lens).
  Notation alpha := (fun d k => Q2R (al d k)).
  Notation eta := (fun t => Q2R (b t)).

  (** Training. *)
  Lemma rposterior_weights v A : valid lens v -> In A (assignments K N) -> (forall t, t < T -> (0 < b t)%Q) -> (forall n, n < N -> w n < T) ->
    exists C, (0 < C)%R /\ forall k, k < K ->
      exp (rjoint g D K T alpha eta (corpus_tokens w lens) (put (place lens v) k A)) =
      (C * Q2R (cq T w lens false (fun _ _ => 0%Z) (fun _ => 0%Z) (al (fst v)) b v A k))%R.
  Proof.
    intros Hv HA Pb Hw. destruct (valid_place lens v Hv) as [Hn Hin]. apply in_assignments in HA as [LA _].
    assert (PA : forall k, k < K -> (0 < Q2R (al (fst v) k))%R) by (intros; apply Q2R_pos, Pa; [apply Hv|assumption]).
    assert (PE : forall t, t < T -> (0 < eta t)%R) by (intros; apply Q2R_pos; auto).
    destruct (split_token w lens A (fst v) (place lens v) LA (proj1 Hv) Hin) as (tk1 & tk2 & a1 & a2 & E & L & EP & ED & EW).
    set (n := place lens v) in *. set (d := fst v) in *.
    set (S := vsum K (fun k => alpha d k + n_doc (tk1 ++ tk2) (a1 ++ a2) d k)%R).
    destruct (Nat.eq_dec K 0) as [->|HK]; [exists 1%R; split; [lra|intros; lia]|].
    assert (PS : (0 < S)%R).
    { apply vsum_pos; [lia|]. intros i Hi. specialize (PA i Hi). cbv beta in PA. pose proof (n_doc_nonneg (tk1 ++ tk2) (a1 ++ a2) d i). lra. }
    exists (exp (rjoint g D K T alpha eta (tk1 ++ tk2) (a1 ++ a2)) / S)%R. split; [apply Rdiv_lt_0_compat; [apply exp_pos|exact PS]|].
    intros k Hk. rewrite EP, E. destruct (put_counts tk1 (d, w n) tk2 a1 k a2 L) as [C1 C2]. rewrite (rjoint_ext _ _ _ _ _ _ _ _ _ _ C1 C2).
    pose proof (Hw n Hn) as Hwn.
    set (oa := others_all lens (fun m => nth m A 0) n k).
    assert (ES : vsum T (fun t => eta t + n_word (tk1 ++ tk2) (a1 ++ a2) k t)%R = (Q2R (qsum b (seq 0 T)) + IZR oa)%R).
    { rewrite (vsum_plus T eta). f_equal; [unfold vsum; symmetry; apply Q2R_qsum|].
      rewrite (vsum_ext T _ (fun t => IZR (others_word w lens (fun m => nth m A 0%nat) n k t))) by (intros; apply EW).
      apply others_total. exact Hw. }
    assert (PT : (0 < vsum T (fun t => eta t + n_word (tk1 ++ tk2) (a1 ++ a2) k t))%R).
    { apply vsum_pos; [lia|]. intros i Hi. specialize (PE i Hi). pose proof (n_word_nonneg (tk1 ++ tk2) (a1 ++ a2) k i). lra. }
    rewrite (rjoint_cons g D K T alpha eta d (w n) (tk1 ++ tk2) k (a1 ++ a2) G PA PE (proj1 Hv) Hwn Hk).
    rewrite !exp_plus. fold S. specialize (PA k Hk). cbv beta in PA. specialize (PE (w n) Hwn).
    pose proof (n_doc_nonneg (tk1 ++ tk2) (a1 ++ a2) d k). pose proof (n_word_nonneg (tk1 ++ tk2) (a1 ++ a2) k (w n)).
    rewrite !exp_frac by lra. rewrite ES in *. rewrite ED, EW.
    unfold cq, cond, conditional. fold n. cbn [Z.add].
    change (fst v) with d. fold oa.
    rewrite Q2R_div.
    2:{ intros Q. apply Qeq_eqR in Q. rewrite Q2R_plus, Q2R_inject, RMicromega.Q2R_0 in Q. lra. }
    rewrite Q2R_mult, !Q2R_plus, !Q2R_inject. field. lra.
  Qed.

  (** A query: the words of the topics stay as they are. *)
  Context (kv : nat -> nat -> Z) (k_ : nat -> Z).
  Lemma rgiven_weights v A : valid lens v -> In A (assignments K N) -> (forall k, k < K -> (0 < inject_Z (k_ k) + qsum b (seq 0 T))%Q) ->
    exists C, forall k, k < K ->
      rgiven g D K alpha (word_share T b kv k_) (corpus_tokens w lens) (put (place lens v) k A) =
      (C * Q2R (cq T w lens true kv k_ (al (fst v)) b v A k))%R.
  Proof.
    intros Hv HA Pk. destruct (valid_place lens v Hv) as [Hn Hin]. apply in_assignments in HA as [LA _].
    assert (PA : forall k, k < K -> (0 < Q2R (al (fst v) k))%R) by (intros; apply Q2R_pos, Pa; [apply Hv|assumption]).
    destruct (split_token w lens A (fst v) (place lens v) LA (proj1 Hv) Hin) as (tk1 & tk2 & a1 & a2 & E & L & EP & ED & EW).
    set (n := place lens v) in *. set (d := fst v) in *.
    set (S := vsum K (fun k => alpha d k + n_doc (tk1 ++ tk2) (a1 ++ a2) d k)%R).
    destruct (Nat.eq_dec K 0) as [->|HK]; [exists 1%R; intros; lia|].
    assert (PS : (0 < S)%R).
    { apply vsum_pos; [lia|]. intros i Hi. specialize (PA i Hi). cbv beta in PA. pose proof (n_doc_nonneg (tk1 ++ tk2) (a1 ++ a2) d i). lra. }
    set (phi := fun x : token * nat => let '((_, t), k) := x in word_share T b kv k_ k t).
    exists (exp (rdocs g D K alpha (tk1 ++ tk2) (a1 ++ a2)) / S * rprod (map phi (combine (tk1 ++ tk2) (a1 ++ a2))))%R.
    intros k Hk. rewrite EP, E. destruct (put_counts tk1 (d, w n) tk2 a1 k a2 L) as [C1 _].
    unfold rgiven. change (fold_right Rmult 1%R) with rprod.
    change (fun x : token * nat => let '((_, t), k) := x in word_share T b kv k_ k t) with phi.
    rewrite combine_app by exact L. cbn [combine]. rewrite rprod_front, <- combine_app by exact L.
    assert (EX : vsum D (fun d0 => lnB g K (fun k0 => alpha d0 k0 + n_doc (tk1 ++ (d, w n) :: tk2) (a1 ++ k :: a2) d0 k0) - lnB g K (alpha d0))%R =
                 rdocs g D K alpha ((d, w n) :: tk1 ++ tk2) (k :: a1 ++ a2)).
    { apply vsum_ext. intros i _. f_equal. apply lnB_ext. intros j _. rewrite C1. reflexivity. }
    rewrite EX, (rdocs_cons g D K alpha d (w n) (tk1 ++ tk2) k (a1 ++ a2) G PA (proj1 Hv) Hk), exp_plus. fold S.
    specialize (PA k Hk). pose proof (n_doc_nonneg (tk1 ++ tk2) (a1 ++ a2) d k).
    rewrite exp_frac by lra. rewrite ED. change (phi (d, w n, k)) with (word_share T b kv k_ k (w n)). unfold word_share at 1.
    specialize (Pk k Hk). pose proof (Q2R_pos _ Pk) as PkR. rewrite Q2R_plus, Q2R_inject in PkR.
    unfold cq, cond, conditional_fixed. fold n. change (fst v) with d.
    rewrite Q2R_div.
    2:{ intros Q. apply Qeq_eqR in Q. rewrite Q2R_plus, Q2R_inject, RMicromega.Q2R_0 in Q. lra. }
    rewrite Q2R_mult, !Q2R_plus, !Q2R_inject. match goal with |- (_ * (_ * rprod ?l1))%R = (_ * rprod ?l2 * _)%R => change l2 with l1; generalize (rprod l1) end. intros Z. field. lra.
  Qed.
End RLaws.
