(** * The membership sampler of the mixture of multinomials as a chain. *)
From Coq Require Import List ZArith QArith Qreals Reals Arith Bool Lra Lia.
From Verif Require Import Base RealModel RealProofs MixModel MixProofs VbModel VbProofs BoundSpec BoundProofs GammaProofs BoundMore StationSpec StationProofs.
From Verif Require Import MixBoundSpec MixBoundProofs MomModel MomSpec GibbsModel.
Import ListNotations.
Open Scope nat_scope.

(** ** The draw *)
Lemma vsum_le_more n m p : n <= m -> (forall k, k < m -> (0 <= p k)%R) -> (vsum n p <= vsum m p)%R.
Proof.
  intros H P. replace m with (n + (m - n)) by lia. assert (Q : forall i, n + i <= m -> (vsum n p <= vsum (n + i) p)%R); [|apply Q; lia].
  induction i as [|i IH]; intros L; [rewrite Nat.add_0_r; lra|]. rewrite Nat.add_succ_r, vsum_S. specialize (IH ltac:(lia)). specialize (P (n + i) ltac:(lia)). lra.
Qed.
Lemma pick_spec p r : forall n k, (vsum k p < r)%R -> let j := pick p r k n in
  k <= j <= k + n /\ (vsum j p < r)%R /\ (j < k + n -> (r <= vsum (S j) p)%R).
Proof.
  induction n as [|n IH]; intros k H; cbn [pick].
  - cbv zeta. split; [lia|]. split; [exact H|lia].
  - destruct (rleb r (vsum (S k) p)) eqn:E; cbv zeta.
    + apply rleb_true in E. split; [lia|]. split; [exact H|]. intros _. exact E.
    + apply rleb_false in E. destruct (IH (S k) E) as (A & B & C). cbv zeta in *. split; [lia|]. split; [exact B|]. intros L. apply C. lia.
Qed.
Lemma draw_iff K p r k : k < K -> (forall j, j < K -> (0 <= p j)%R) -> vsum K p = 1%R -> (0 < r)%R -> (r <= 1)%R ->
  multinomial_one K p r < K /\ (multinomial_one K p r = k <-> (vsum k p < r)%R /\ (r <= vsum (S k) p)%R).
Proof.
  intros Hk P S R0 R1. unfold multinomial_one. destruct (pick_spec p r (K - 1) 0 ltac:(cbn; exact R0)) as (A & B & C). cbv zeta in *.
  set (j := pick p r 0 (K - 1)) in *. assert (J : j < K) by lia.
  assert (C' : (r <= vsum (Datatypes.S j) p)%R).
  { destruct (Nat.eq_dec j (K - 1)) as [E|E]; [|apply C; lia]. replace (Datatypes.S j) with K by lia. lra. }
  split; [exact J|]. split; [intros <-; split; assumption|]. intros [X Y].
  destruct (Nat.lt_trichotomy j k) as [L|[E|L]]; [|exact E|].
  - pose proof (vsum_le_more (Datatypes.S j) k p ltac:(lia) ltac:(intros; apply P; lia)). lra.
  - pose proof (vsum_le_more (Datatypes.S k) j p ltac:(lia) ltac:(intros; apply P; lia)). lra.
Qed.

Lemma one_hot_nonneg k j : (0 <= one_hot k j)%R.
Proof. unfold one_hot. destruct (j =? k); lra. Qed.
Lemma one_hot_sum K k : k < K -> vsum K (one_hot k) = 1%R.
Proof. intros H. rewrite (vsum_only K k); [unfold one_hot; rewrite Nat.eqb_refl; reflexivity|exact H|]. intros j _ N. unfold one_hot. rewrite (proj2 (Nat.eqb_neq j k) N). reflexivity. Qed.

Lemma draw_ext (p p' : vec) r : forall n k, (forall j, j < k + n -> p j = p' j) -> pick p r k n = pick p' r k n.
Proof.
  induction n as [|n IH]; intros k H; [reflexivity|]. cbn [pick]. rewrite (vsum_ext (S k) p p') by (intros; apply H; lia).
  rewrite (IH (S k)) by (intros; apply H; lia). reflexivity.
Qed.
Section Sampler.
  Context (a : R) (K T : nat) (phi : nat -> vec) (W : list vec) (alpha : vec) (M0 : members).
  Notation D := (length W).
  Notation A_ := (assignments K D).
  Hypothesis HK : 0 < K.
  Hypothesis Pa : forall k, k < K -> (1 < alpha k)%R.
  Hypothesis PM : forall d k, d < D -> k < K -> (0 <= M0 d k)%R.

  (** Visit [(i, d)] is that to document [d] in sweep [i]: before it the documents
      that are not yet drawn, in the first sweep, are as they were given. *)
  Definition cur (v : nat * nat) (A : list nat) (d' : nat) : vec :=
    if (fst v =? 0) && (snd v <=? d') then M0 d' else one_hot (nth d' A 0).
  Definition rest (v : nat * nat) (A : list nat) : vec :=
    fun k => (vsum D (fun d' => if d' =? snd v then 0 else cur v A d' k) + alpha k - 1)%R.
  Definition weight_of (v : nat * nat) (A : list nat) : vec :=
    fun k => (word_score a T phi W (snd v) k + safe_ln a (rest v A k / vsum K (rest v A)))%R.
  Definition mq (v : nat * nat) (A : list nat) : vec := soft K (weight_of v A).
  Definition holds (v : nat * nat) (A : list nat) (st : members * vec) : Prop :=
    (forall d' k, d' < D -> k < K -> fst st d' k = cur v A d' k) /\ (forall k, k < K -> snd st k = prior_num W alpha (fst st) k).

  Lemma cur_nonneg v A d' k : d' < D -> k < K -> (0 <= cur v A d' k)%R.
  Proof. intros Hd Hk. unfold cur. destruct (_ && _); [apply PM; assumption|apply one_hot_nonneg]. Qed.
  Lemma rest_pos v A k : k < K -> (0 < rest v A k)%R.
  Proof.
    intros Hk. unfold rest. specialize (Pa k Hk). assert (0 <= vsum D (fun d' => if d' =? snd v then 0 else cur v A d' k))%R; [|lra].
    apply vsum_nonneg. intros d' Hd. destruct (d' =? snd v); [lra|apply cur_nonneg; assumption].
  Qed.
  Lemma rest_sum v A : (0 < vsum K (rest v A))%R.
  Proof. apply vsum_pos; [exact HK|]. intros k Hk. apply rest_pos, Hk. Qed.
  Lemma mq_pos v A k : (0 < mq v A k)%R.
  Proof using HK. apply soft_pos, HK. Qed.
  Lemma mq_sum v A : vsum K (mq v A) = 1%R.
  Proof using HK. apply soft_proper, HK. Qed.
  Lemma mq_legal v : snd v < D -> legal K D snd mq v.
  Proof using HK. intros H. split; [exact H|]. intros A _. split; [intros k _; left; apply mq_pos|apply mq_sum]. Qed.

  Lemma vsum_split n d (f : vec) : d < n -> vsum n f = (f d + vsum n (fun i => if i =? d then 0 else f i))%R.
  Proof using.
    intros H. rewrite (vsum_ext n f (fun i => (if i =? d then f i else 0) + (if i =? d then 0 else f i))%R) by (intros i _; destruct (i =? d); ring).
    rewrite (vsum_plus n (fun i => if i =? d then f i else 0)%R). f_equal. rewrite (vsum_only n d); [rewrite Nat.eqb_refl; reflexivity|exact H|].
    intros j _ N. rewrite (proj2 (Nat.eqb_neq j d) N). reflexivity.
  Qed.

  (** The visit by what it draws. *)
  Lemma visit_draws v A r M pn : vsum K (rest v A) <> 0%R -> snd v < D -> In A A_ -> holds v A (M, pn) -> exists p pn', (forall k, k < K -> p k = mq v A k) /\
    let k := multinomial_one K p r in
    mom_visit a K T phi W (snd v) r (M, pn) = Ok (set_row M (snd v) (one_hot k), pn') /\
    (k < K -> holds (fst v, S (snd v)) (put (snd v) k A) (set_row M (snd v) (one_hot k), pn')).
  Proof using HK. clear Pa PM.
    intros NZ Hd HA (H1 & H2). cbn [fst snd] in H1, H2. unfold mom_visit.
    set (p1 := fun k => (pn k - M (snd v) k)%R).
    assert (E1 : forall k, k < K -> p1 k = rest v A k).
    { intros k Hk. unfold p1, rest. rewrite H2 by exact Hk. unfold prior_num. rewrite (vsum_split D (snd v) (fun d => M d k) Hd).
      rewrite (vsum_ext D (fun i => if i =? snd v then 0 else M i k)%R (fun d' => if d' =? snd v then 0 else cur v A d' k)%R); [ring|].
      intros i Hi. destruct (i =? snd v); [reflexivity|]. apply H1; assumption. }
    assert (ES : vsum K p1 = vsum K (rest v A)) by (apply vsum_ext; exact E1).
    unfold log_prior. destruct (Req_EM_T (vsum K p1) 0) as [Z|_]; [congruence|]. cbn [bind].
    set (s := fun k => (word_score a T phi W (snd v) k + safe_ln a (p1 k / vsum K p1))%R).
    destruct (max_of_ok (map s (seq 0 K))) as [mx ->]; [destruct K; [lia|discriminate]|]. cbn [bind].
    set (p := fun k => exp (s k - mx - ln (vsum K (fun j => exp (s j - mx))))%R).
    assert (EP : forall k, k < K -> p k = mq v A k).
    { intros k Hk. unfold p, mq. rewrite <- (soft_shift K (weight_of v A) (fun k => (s k - mx)%R) (- mx)%R k); [|intros j Hj; unfold s, weight_of; rewrite E1, ES by exact Hj; ring|exact Hk].
      unfold soft. assert (PV : (0 < vsum K (fun j => exp (s j - mx)))%R) by (apply vsum_pos; [exact HK|intros; apply exp_pos]).
      unfold Rminus at 1. rewrite exp_plus, exp_Ropp, exp_ln by exact PV. reflexivity. }
    exists p, (fun k => p1 k + set_row M (snd v) (one_hot (multinomial_one K p r)) (snd v) k)%R. split; [exact EP|]. cbv zeta. split; [reflexivity|]. intros Hk. set (j := multinomial_one K p r) in *.
    pose proof HA as HL. apply in_assignments in HL as [LA _]. split; cbn [fst snd].
    - intros d' k Hd' Hk'. unfold set_row, cur. cbn [fst snd]. destruct (Nat.eqb_spec d' (snd v)) as [->|N].
      + rewrite (proj2 (Nat.leb_gt (S (snd v)) (snd v))) by lia. rewrite andb_false_r. rewrite put_same by lia. reflexivity.
      + rewrite put_other by exact N. rewrite H1 by assumption. unfold cur.
        replace (S (snd v) <=? d') with (snd v <=? d'); [reflexivity|]. destruct (Nat.leb_spec (snd v) d'), (Nat.leb_spec (S (snd v)) d'); try reflexivity; lia.
    - intros k Hk'. unfold prior_num. change (p1 k) with (pn k - M (snd v) k)%R. rewrite H2 by exact Hk'. unfold prior_num.
      rewrite (vsum_split D (snd v) (fun d => M d k) Hd), (vsum_split D (snd v) (fun d => set_row M (snd v) (one_hot j) d k) Hd).
      rewrite (vsum_ext D (fun i => if i =? snd v then 0 else set_row M (snd v) (one_hot j) i k)%R (fun i => if i =? snd v then 0 else M i k)%R).
      + ring.
      + intros i _. unfold set_row. destruct (i =? snd v); reflexivity.
  Qed.


  (** ** Visits after the first sweep: all documents are in one component. *)
  Definition stands (A : list nat) (st : members * vec) : Prop :=
    (forall d k, d < D -> k < K -> fst st d k = one_hot (nth d A 0) k) /\ (forall k, k < K -> snd st k = prior_num W alpha (fst st) k).
  Definition mmoves (d : nat) (A : list nat) (r : Q) (A' : list nat) : Prop :=
    forall st, stands A st -> exists st', mom_visit a K T phi W d (Q2R r) st = Ok st' /\ stands A' st'.
  Definition kq (d : nat) (A : list nat) : vec := mq (1, d) A.

  Lemma stands_holds d A st : stands A st <-> holds (1, d) A st.
  Proof using. reflexivity. Qed.
  Lemma stands_exists A : exists st, stands A st.
  Proof using. exists ((fun d => one_hot (nth d A 0)), prior_num W alpha (fun d => one_hot (nth d A 0))). split; reflexivity. Qed.
  Lemma stands_unique A A' st : In A A_ -> In A' A_ -> stands A st -> stands A' st -> A = A'.
  Proof using HK.
    intros HA HA' [H1 _] [H2 _]. pose proof HA as [L _]%in_assignments. pose proof HA' as [L' _]%in_assignments.
    apply nth_ext with 0 0; [congruence|]. intros d Hd. rewrite L in Hd. assert (X : nth d A 0 < K) by (eapply nth_in; eassumption).
    specialize (H1 d (nth d A 0) Hd X). rewrite (H2 d (nth d A 0) Hd X) in H1. unfold one_hot in H1. rewrite Nat.eqb_refl in H1.
    destruct (Nat.eqb_spec (nth d A 0) (nth d A' 0)); [assumption|lra].
  Qed.
  (** What a visit does with a number of (0,1]. *)
  Lemma visit_gives d A r st : vsum K (rest (1%nat, d) A) <> 0%R -> d < D -> In A A_ -> stands A st -> (0 < r)%R -> (r <= 1)%R ->
    let k := multinomial_one K (kq d A) r in k < K /\ exists st', mom_visit a K T phi W d r st = Ok st' /\ stands (put d k A) st'.
  Proof using HK. clear Pa PM.
    intros NZ Hd HA Hs R0 R1. destruct st as [M pn]. apply (stands_holds d) in Hs.
    destruct (visit_draws (1, d) A r M pn NZ Hd HA Hs) as (p & pn' & EP & H). cbv zeta in *. cbn [fst snd] in *. destruct H as [E H].
    assert (EQ : multinomial_one K p r = multinomial_one K (kq d A) r) by (apply draw_ext; intros; apply EP; lia). rewrite EQ in E, H.
    assert (L : multinomial_one K (kq d A) r < K).
    { apply (draw_iff K (kq d A) r 0); [exact HK|intros; left; apply mq_pos|apply mq_sum|exact R0|exact R1]. }
    split; [exact L|]. eexists. split; [exact E|]. exact (H L).
  Qed.
  Lemma Q2R_unit r : (0 < r)%Q -> (r <= 1)%Q -> (0 < Q2R r)%R /\ (Q2R r <= 1)%R.
  Proof using. clear. intros A B. apply Qlt_Rlt in A. apply Qle_Rle in B. rewrite RMicromega.Q2R_0 in A. rewrite RMicromega.Q2R_1 in B. split; assumption. Qed.

  Notation pos := (fun d : nat => d).
  Lemma mom_share d A A' : vsum K (rest (1%nat, d) A) <> 0%R -> d < D -> In A A_ -> In A' A_ -> share (fun r => mmoves d A r A') (prob pos kq d A A').
  Proof using HK. clear Pa PM.
    intros NZ Hd HA HA'. pose proof HA as [LA _]%in_assignments.
    assert (FW : forall r, (0 < r)%Q -> (r <= 1)%Q -> (mmoves d A r A' <-> A' = put d (multinomial_one K (kq d A) (Q2R r)) A)).
    { intros r H0 H1. destruct (Q2R_unit r H0 H1) as [R0 R1]. split.
      - intros M. destruct (stands_exists A) as (st & S). destruct (M st S) as (st' & E & S').
        destruct (visit_gives d A (Q2R r) st NZ Hd HA S R0 R1) as (Hk & st2 & E2 & S2). cbv zeta in *. rewrite E in E2. injection E2 as <-.
        apply (stands_unique A' _ st' HA'); [apply put_in; assumption|exact S'|exact S2].
      - intros -> st S. destruct (visit_gives d A (Q2R r) st NZ Hd HA S R0 R1) as (Hk & st2 & E2 & S2). exists st2. split; assumption. }
    unfold prob. destruct (eqa (put d (nth d A' 0) A) A') eqn:EQ.
    - unfold eqa in EQ. destruct (list_eq_dec _ _ _) as [EA|] in EQ; [|discriminate EQ]. clear EQ.
      set (k := nth d A' 0) in *. assert (Hk : k < K) by (eapply nth_in; eassumption).
      assert (NN : forall j, (0 <= kq d A j)%R) by (intros; left; apply mq_pos).
      exists (vsum k (kq d A)), (vsum (S k) (kq d A)). rewrite vsum_S. split; [apply vsum_nonneg; intros; apply NN|]. split; [specialize (NN k); lra|].
      split; [rewrite <- vsum_S; rewrite <- (mq_sum (1, d) A); apply vsum_le_more; [lia|intros; apply NN]|]. split; [ring|].
      intros r H0 H1. rewrite FW by assumption. destruct (Q2R_unit r H0 H1) as [R0 R1].
      destruct (draw_iff K (kq d A) (Q2R r) k Hk ltac:(intros; apply NN) (mq_sum (1, d) A) R0 R1) as [_ I]. rewrite vsum_S in I. rewrite <- I. split.
      + intros E. unfold k. rewrite E. rewrite put_same by lia. reflexivity.
      + intros ->. symmetry. exact EA.
    - apply share_never. intros r H0 H1 M. apply FW in M; [|assumption|assumption].
      rewrite M in EQ. rewrite put_same in EQ by lia. rewrite eqa_refl in EQ. discriminate EQ.
  Qed.
  Lemma kq_put d k A j : kq d (put d k A) j = kq d A j.
  Proof using.
    unfold kq, mq. assert (E : forall i, rest (1, d) (put d k A) i = rest (1, d) A i).
    { intros i. unfold rest. f_equal. f_equal. apply vsum_ext. intros d' _. cbn [snd]. destruct (Nat.eqb_spec d' d); [reflexivity|].
      unfold cur. cbn [fst snd Nat.eqb andb]. rewrite put_other by assumption. reflexivity. }
    assert (EW : forall i, weight_of (1, d) (put d k A) i = weight_of (1, d) A i).
    { intros i. unfold weight_of. rewrite E. rewrite (vsum_ext K (rest (1, d) (put d k A)) (rest (1, d) A)) by (intros; apply E). reflexivity. }
    unfold soft. rewrite EW. f_equal. apply vsum_ext. intros. rewrite EW. reflexivity.
  Qed.
  Lemma mom_fits pi d : d < D -> (forall A, In A A_ -> exists C, forall k, k < K -> pi (put d k A) = (C * exp (weight_of (1%nat, d) A k))%R) ->
    fits K D pos kq pi d.
  Proof using HK.
    intros Hd H A k HA Hk. split; [|intros; apply kq_put].
    destruct (H A HA) as (C & E). rewrite (E k Hk). rewrite (vsum_ext K (fun j => pi (put d j A)) (fun j => C * exp (weight_of (1%nat, d) A j))%R) by (intros; apply E; assumption).
    rewrite vsum_scale. unfold kq, mq, soft. assert (0 < vsum K (fun j => exp (weight_of (1%nat, d) A j)))%R by (apply vsum_pos; [exact HK|intros; apply exp_pos]).
    field. lra.
  Qed.
End Sampler.

(** ** A chain of documents that are visited in turn, over and over *)
Section Rounds.
  Context (N : nat).
  Definition sweeps (n : nat) : list nat := flat_map (fun _ => seq 0 N) (seq 0 n).
  Definition rounds (ns : list nat) : list (list nat) := map sweeps ns.
  Lemma sweeps_in n d : In d (sweeps n) -> d < N.
  Proof. intros H. apply in_flat_map in H as (_ & _ & H). apply in_seq in H. lia. Qed.
  Lemma rounds_in ns d : In d (concat (rounds ns)) -> d < N.
  Proof. intros H. apply in_concat in H as (vs & Hvs & Hv). apply in_map_iff in Hvs as (i & <- & _). eapply sweeps_in, Hv. Qed.
  Lemma sweeps_S n : sweeps (S n) = sweeps n ++ seq 0 N.
  Proof. unfold sweeps. rewrite seq_S, flat_map_app. cbn [flat_map]. rewrite app_nil_r. reflexivity. Qed.
End Rounds.

Section Chain.
  Context (K N : nat) (HK : 0 < K) (q : nat -> list nat -> nat -> R) (mv : nat -> list nat -> Q -> list nat -> Prop) (pi : list nat -> R).
  Notation A_ := (assignments K N).
  Notation sweeps := (sweeps N).
  Notation rounds := (rounds N).
  Notation pos := (fun d : nat => d).
  Hypothesis HS : forall d A A', d < N -> In A A_ -> In A' A_ -> share (fun r => mv d A r A') (prob pos q d A A').
  Hypothesis HF : forall d, d < N -> fits K N pos q pi d.
  Hypothesis HP : forall d A k, (0 < q d A k)%R.
  Hypothesis HQ : forall d A, vsum K (q d A) = 1%R.
  Hypothesis Hpi : forall A, In A A_ -> (0 <= pi A)%R.
  Hypothesis Tpi : BoundProofs.total K N pi = 1%R.

  Lemma all_legal d : d < N -> legal K N pos q d.
  Proof. intros H. split; [exact H|]. intros A _. split; [intros; left; apply HP|apply HQ]. Qed.
  Lemma sw_share n d : In d (sweeps n) -> forall A A', In A A_ -> In A' A_ -> share (fun r => mv d A r A') (prob pos q d A A').
  Proof. intros H A A' HA HA'. apply HS; [eapply sweeps_in, H|assumption|assumption]. Qed.
  Lemma sw_exists n mu : exists mu', after K N mv (sweeps n) mu mu'.
  Proof. eexists. apply (after_exists K N pos q). apply sw_share. Qed.
  Lemma sw_same n : same K N (steps K N pos q (sweeps n) pi) pi.
  Proof. apply steps_fit; [exact HK|]. intros v Hv. apply sweeps_in in Hv. split; [exact Hv|apply HF, Hv]. Qed.
  Lemma sw_kept n mu : after K N mv (sweeps n) pi mu -> forall A, In A A_ -> mu A = pi A.
  Proof. intros AF A HA. rewrite (after_steps K N pos q mv (sweeps n) pi mu (sw_share n) AF A HA). apply sw_same, HA. Qed.
  Lemma sw_floor : exists eps, (0 < eps)%R /\ (eps <= 1)%R /\ forall d A k, d < N -> In A A_ -> k < K -> (eps <= q d A k)%R.
  Proof.
    destruct (positive_min (fun x => q (fst (fst x)) (snd (fst x)) (snd x)) (list_prod (list_prod (seq 0 N) A_) (seq 0 K))) as (e & E0 & E1 & E2).
    - intros [[v A] k] _. apply HP.
    - exists e. split; [exact E0|]. split; [exact E1|]. intros v A k Hv HA Hk. apply (E2 (v, A, k)). apply in_prod_iff. split; [|apply in_seq; lia].
      apply in_prod_iff. split; [apply in_seq; lia|exact HA].
  Qed.
  Lemma sw_forgets e : (0 < e)%R -> exists n0, forall n A0 mu, n0 <= n -> In A0 A_ -> after K N mv (sweeps n) (certainly A0) mu -> (apart K N mu pi < e)%R.
  Proof.
    intros He. destruct sw_floor as (eps & E0 & E1 & E2).
    assert (PE : (0 < eps ^ N)%R) by (apply pow_lt; exact E0).
    assert (PE1 : (eps ^ N <= 1)%R) by (rewrite <- (pow1 N); apply pow_incr; lra).
    destruct (pow_small (1 - eps ^ N) (e / 3)) as (n0 & Hn0); [lra|lra|lra|].
    exists n0. intros n A0 mu Hn HA AF.
    pose proof (after_steps K N pos q mv _ _ _ (sw_share n) AF) as S.
    pose proof (rounds_forget K N HK pos q (fun _ => seq 0 N) eps N (certainly A0) pi E0 E1) as F.
    specialize (F ltac:(intros i v Hv; apply in_seq in Hv; apply all_legal; lia)).
    specialize (F ltac:(intros i v A k Hv HA' Hk; apply in_seq in Hv; apply E2; [lia|exact HA'|exact Hk])).
    specialize (F ltac:(intros i m Hm; rewrite map_id; apply in_seq; lia) ltac:(intros; apply seq_length)).
    specialize (F ltac:(rewrite certainly_total by exact HA; symmetry; exact Tpi) n).
    assert (D2 : (dist1 K N (certainly A0) pi <= 2)%R).
    { unfold dist1. apply Rle_trans with (BoundProofs.total K N (fun A => certainly A0 A + pi A))%R.
      - apply total_le. intros A HA'. pose proof (certainly_nonneg A0 A). pose proof (Hpi A HA'). apply Rabs_le. lra.
      - rewrite total_plus, certainly_total, Tpi by exact HA. lra. }
    assert (EQ : apart K N mu pi = dist1 K N (steps K N pos q (sweeps n) (certainly A0)) (steps K N pos q (sweeps n) pi)).
    { apply total_ext_in. intros A HA'. rewrite (S A HA'), (sw_same n A HA'). reflexivity. }
    rewrite EQ. eapply Rle_lt_trans; [exact F|]. specialize (Hn0 n Hn).
    assert (0 <= (1 - eps ^ N) ^ n)%R by (apply pow_le; lra).
    assert ((1 - eps ^ N) ^ n * dist1 K N (certainly A0) pi <= (1 - eps ^ N) ^ n * 2)%R by (apply Rmult_le_compat_l; lra). lra.
  Qed.

  (** A round of any number of sweeps, of at least one, reaches everything. *)
  Lemma sw_mixes : exists c, (0 < c)%R /\ (c <= 1)%R /\ forall n, 0 < n -> mixes K N pos q pi c (sweeps n).
  Proof.
    destruct sw_floor as (eps & E0 & E1 & E2). exists (eps ^ N)%R. split; [apply pow_lt, E0|].
    split; [rewrite <- (pow1 N); apply pow_incr; lra|]. intros n Hn.
    assert (LG : forall v, In v (sweeps n) -> legal K N pos q v) by (intros v Hv; apply all_legal; eapply sweeps_in, Hv).
    split; [exact LG|]. split; [|apply sw_same].
    intros A A' HA HA'. destruct n as [|n]; [lia|]. rewrite (sweeps_S N), steps_app.
    assert (LG' : forall v, In v (sweeps n) -> legal K N pos q v) by (intros v Hv; apply all_legal; eapply sweeps_in, Hv).
    assert (L1 : forall v, In v (seq 0 N) -> legal K N pos q v) by (intros v Hv; apply in_seq in Hv; apply all_legal; lia).
    rewrite steps_sum by assumption.
    apply Rle_trans with (BoundProofs.total K N (fun B => eps ^ N * steps K N pos q (sweeps n) (certainly A) B))%R.
    - rewrite total_scale, (steps_total K N pos q (sweeps n) LG'), certainly_total by exact HA. lra.
    - apply total_le. intros B HB. rewrite Rmult_comm. apply Rmult_le_compat_l.
      + apply steps_nonneg; [exact HK|exact LG'|intros; apply certainly_nonneg|exact HB].
      + replace N with (length (seq 0 N)) at 1 by apply seq_length.
        apply steps_reach; [exact HK|exact HA'|lra|exact L1|intros v C k Hv HC Hk; apply in_seq in Hv; apply E2; [lia|assumption|assumption]|exact HB|].
        apply (puts_all K N); [exact HB|exact HA'|intros v Hv; apply in_seq in Hv; lia|]. intros m Hm. rewrite map_id. apply in_seq. lia.
  Qed.
  Lemma sw_averages : exists C, forall ns A0 f x, ns <> [] -> Forall (fun n => 0 < n) ns -> In A0 A_ ->
    (forall A, In A A_ -> (0 <= f A <= 1)%R) ->
    expects K N mv (rounds ns) A0 (fun p => (average f p - mean K N pi f) * (average f p - mean K N pi f))%R x -> (x <= C / INR (length ns))%R.
  Proof.
    destruct sw_mixes as (c & C0 & C1 & CM). exists (1 + 2 / c)%R. intros ns A0 f x Hm Hn HA Hf EX.
    rewrite (expects_expv K N pos q mv _ _ _ _ (fun v Hv A A' => HS v A A' (rounds_in N ns v Hv)) EX).
    pose proof (mean_square K N HK pos q pi c 1 f (rounds ns) A0 Hpi Tpi C0 C1 Hf) as S.
    assert (EL : length (rounds ns) = length ns) by (apply map_length).
    rewrite EL, !Rmult_1_l in S. apply S; [|exact HA|destruct ns; [congruence|discriminate]].
    intros vs Hvs. apply in_map_iff in Hvs as (n & <- & Hn'). apply CM. rewrite Forall_forall in Hn. apply Hn, Hn'.
  Qed.
  Lemma sw_expects ns A0 F : exists x, expects K N mv (rounds ns) A0 F x.
  Proof. apply (expects_exists K N pos q). intros v Hv A A' HA HA'. apply HS; [eapply rounds_in, Hv|assumption|assumption]. Qed.
End Chain.
