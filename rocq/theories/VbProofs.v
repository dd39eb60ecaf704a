(** * Lemmas about variational LDA. *)
From Coq Require Import List Reals ZArith Arith Bool Lra Lia.
From Verif Require Import Base RealModel RealProofs MixModel MixProofs MixProps VbModel.
Import ListNotations.
Open Scope nat_scope.

(** ** Specification *)
(** How often word [t] occurs in a document, and in a corpus. *)
Definition count (doc : words) (t : nat) : R := rsum (map (fun e => if fst e =? t then snd e else 0%R) doc).
Definition word_total (docs : list words) (t : nat) : R := rsum (map (fun doc => count doc t) docs).
Definition tokens (doc : words) : R := rsum (map snd doc).
(** A corpus over [T] words: no word is stored twice, counts are not negative and
    no document is empty. *)
Definition corpus (T : nat) (docs : list words) (docLens : vec) : Prop :=
  Forall (fun doc => NoDup (map fst doc) /\ Forall (fun e => fst e < T /\ (0 <= snd e)%R) doc) docs /\
  forall d, d < length docs -> docLens d = tokens (nth d docs []) /\ (1 <= docLens d)%R.
(** A distribution over [n] outcomes. *)
Definition proper (n : nat) (v : vec) : Prop := (forall i, i < n -> (0 <= v i)%R) /\ vsum n v = 1%R.

(** ** Sums *)
Lemma vsum_ext n v w : (forall i, i < n -> v i = w i) -> vsum n v = vsum n w.
Proof. intros H. apply rsum_ext. intros i Hi. apply in_seq in Hi. apply H. lia. Qed.
Lemma vsum_plus n v w : vsum n (fun i => v i + w i)%R = (vsum n v + vsum n w)%R.
Proof. apply rsum_plus. Qed.
Lemma vsum_scale n c v : vsum n (fun i => c * v i)%R = (c * vsum n v)%R.
Proof. unfold vsum. rewrite <- rsum_scale, map_map. reflexivity. Qed.
Lemma vsum_scale_r n c v : vsum n (fun i => v i * c)%R = (vsum n v * c)%R.
Proof. rewrite Rmult_comm, <- vsum_scale. apply vsum_ext. intros. ring. Qed.
Lemma vsum_const n c : vsum n (fun _ => c) = (INR n * c)%R.
Proof. unfold vsum. rewrite rsum_const, seq_length. reflexivity. Qed.
Lemma vsum_nonneg n v : (forall i, i < n -> (0 <= v i)%R) -> (0 <= vsum n v)%R.
Proof.
  intros H. apply rsum_nonneg. apply Forall_forall. intros x Hx. apply in_map_iff in Hx as (i & <- & Hi).
  apply in_seq in Hi. apply H. lia.
Qed.
Lemma vsum_pos n v : 0 < n -> (forall i, i < n -> (0 < v i)%R) -> (0 < vsum n v)%R.
Proof.
  intros N H. apply rsum_pos; [destruct n; [lia|discriminate]|]. apply Forall_forall. intros x Hx.
  apply in_map_iff in Hx as (i & <- & Hi). apply in_seq in Hi. apply H. lia.
Qed.
Lemma vsum_le n v w : (forall i, i < n -> (v i <= w i)%R) -> (vsum n v <= vsum n w)%R.
Proof.
  intros H. assert (0 <= vsum n (fun i => w i - v i))%R by (apply vsum_nonneg; intros i Hi; specialize (H i Hi); lra).
  assert (E : vsum n (fun i => w i - v i)%R = (vsum n w - vsum n v)%R).
  { transitivity (vsum n (fun i => w i + -1 * v i)%R); [apply vsum_ext; intros; ring|].
    rewrite vsum_plus, vsum_scale. ring. }
  lra.
Qed.
Lemma vsum_swap n m (f : nat -> nat -> R) : vsum n (fun i => vsum m (fun j => f i j)) = vsum m (fun j => vsum n (fun i => f i j)).
Proof. apply rsum_swap. Qed.
Lemma vsum_nth_dist K zc : dist K zc -> vsum K (fun k => nth k zc 0%R) = 1%R.
Proof. intros (L & _ & E). unfold vsum. rewrite <- L, rsum_nth. exact E. Qed.
Lemma dist_nth K zc k : dist K zc -> k < K -> (0 < nth k zc 0)%R.
Proof. intros (L & P & _) H. rewrite Forall_forall in P. apply P, nth_In. lia. Qed.
Lemma vsum_in_le n v i : (forall j, j < n -> (0 <= v j)%R) -> i < n -> (v i <= vsum n v)%R.
Proof.
  intros H Hi. apply rsum_in_le; [|apply in_map, in_seq; lia].
  apply Forall_forall. intros x Hx. apply in_map_iff in Hx as (j & <- & Hj). apply in_seq in Hj. apply H. lia.
Qed.

(** ** One document *)
Lemma count_absent doc t : ~ In t (map fst doc) -> count doc t = 0%R.
Proof.
  induction doc as [|[u x] doc IH]; intros H; [reflexivity|]. cbn [map fst In] in H. unfold count in *. cbn [map rsum fst snd].
  rewrite (proj2 (Nat.eqb_neq u t)) by tauto. rewrite IH by tauto. ring.
Qed.
Lemma count_present doc t x : NoDup (map fst doc) -> In (t, x) doc -> count doc t = x.
Proof.
  induction doc as [|[u y] doc IH]; intros N H; [destruct H|]. cbn [map fst] in N. inversion N; subst.
  unfold count in *. cbn [map rsum fst snd]. destruct H as [E|H].
  - injection E as -> ->. rewrite Nat.eqb_refl. pose proof (count_absent doc t H2) as C. unfold count in C. rewrite C. ring.
  - assert (u <> t) by (intros ->; apply H2; apply in_map_iff; exists (t, x); auto).
    rewrite (proj2 (Nat.eqb_neq u t)) by assumption. rewrite IH by assumption. ring.
Qed.
Lemma count_nonneg doc t : Forall (fun e => (0 <= snd e)%R) doc -> (0 <= count doc t)%R.
Proof.
  intros H. apply rsum_nonneg. apply Forall_forall. intros y Hy. apply in_map_iff in Hy as (e & <- & He).
  rewrite Forall_forall in H. specialize (H e He). destruct (_ =? _); lra.
Qed.
Lemma count_tokens T doc : Forall (fun e => fst e < T) doc -> vsum T (count doc) = tokens doc.
Proof.
  intros H. unfold vsum, count, tokens. rewrite (rsum_swap (fun t e => if fst e =? t then snd e else 0%R)).
  apply rsum_ext. intros e He. rewrite Forall_forall in H. specialize (H e He). clear He.
  generalize (fst e) (snd e) H. clear. intros t x H.
  replace (seq 0 T) with (seq 0 t ++ t :: seq (S t) (T - S t)).
  - rewrite map_app, rsum_app. cbn [map rsum]. rewrite Nat.eqb_refl.
    assert (Z : forall l, ~ In t l -> rsum (map (fun a => if t =? a then x else 0%R) l) = 0%R).
    { induction l as [|a l IH]; intros N; [reflexivity|]. cbn in N. cbn [map rsum].
      rewrite (proj2 (Nat.eqb_neq t a)) by (intros ->; tauto). rewrite IH by tauto. ring. }
    rewrite !Z; [ring| |]; rewrite in_seq; lia.
  - replace (t :: seq (S t) (T - S t)) with (seq (0 + t) (T - t)); [rewrite <- seq_app; f_equal; lia|].
    replace (T - t) with (S (T - S t)) by lia. reflexivity.
Qed.

Lemma list_nth_seq {A} (l : list A) (d : A) : l = map (fun i => nth i l d) (seq 0 (length l)).
Proof. induction l as [|x l IH]; [reflexivity|]. cbn [length seq map nth]. f_equal. rewrite <- seq_shift, map_map. exact IH. Qed.

Section Proofs.
  Context (psi : R -> R) (bound : mat -> mat -> R) (K T : nat).
  Notation infer := (infer psi K).
  Notation visit := (visit psi K T).
  Notation visits := (visits psi K T).

  Lemma infer_ok doc len mean prior diW diSum : 0 < K ->
    exists z, infer doc len mean prior diW diSum = Ok z /\ length z = length doc /\ Forall (dist K) z.
  Proof.
    intros HK. unfold VbModel.infer. induction doc as [|e doc IH]; [exists []; repeat split; constructor|].
    destruct IH as (z & E & L & F). cbn [mapM].
    destruct (softmax_dist (scores psi K len mean prior diW diSum (fst e))) as (out & E1 & D1).
    { unfold scores. destruct K; [lia|discriminate]. }
    rewrite E1. cbn [bind]. rewrite E. exists (out :: z). split; [reflexivity|]. split; [cbn; lia|].
    constructor; [|exact F]. unfold scores in D1. rewrite map_length, seq_length in D1. exact D1.
  Qed.

  Lemma stored_fold t : forall (doc : words) (z : list (list R)) (acc : option (R * list R)), length z = length doc ->
    let r := fold_left (fun acc '((u, x), zc) => if u =? t then Some (x, zc) else acc) (combine doc z) acc in
    (~ In t (map fst doc) -> r = acc) /\
    (NoDup (map fst doc) -> forall x, In (t, x) doc -> exists zc, In zc z /\ r = Some (x, zc)).
  Proof.
    induction doc as [|[u y] doc IH]; intros [|zc z] acc L; try discriminate L; cbn zeta.
    - split; [reflexivity|intros _ x []].
    - cbn [combine fold_left map fst]. injection L as L. split.
      + intros H. cbn [In] in H. rewrite (proj2 (Nat.eqb_neq u t)) by tauto. apply (IH z acc L). tauto.
      + intros N x H. inversion N; subst. destruct H as [E|H].
        * injection E as -> ->. rewrite Nat.eqb_refl. exists zc. split; [left; reflexivity|].
          apply (proj1 (IH z (Some (x, zc)) L)). assumption.
        * destruct (proj2 (IH z (if u =? t then Some (y, zc) else acc) L) H3 x H) as (zc' & I & E).
          exists zc'. split; [right; exact I|exact E].
  Qed.

  Lemma add_words_spec doc z grad t : length z = length doc -> Forall (dist K) z -> NoDup (map fst doc) ->
    Forall (fun e => (0 <= snd e)%R) doc ->
    vsum K (fun k => add_words doc z grad k t) = (vsum K (fun k => grad k t) + count doc t)%R /\
    forall k, k < K -> (grad k t <= add_words doc z grad k t)%R.
  Proof.
    intros L F N P. unfold add_words, stored.
    destruct (stored_fold t doc z None L) as [A B]. destruct (in_dec Nat.eq_dec t (map fst doc)) as [I|I].
    - apply in_map_iff in I as ([u x] & E & I). cbn in E. subst u. destruct (B N x I) as (zc & Iz & E). rewrite E.
      rewrite (count_present doc t x N I). rewrite Forall_forall in F, P. specialize (F zc Iz). specialize (P _ I). cbn in P. split.
      + rewrite (vsum_plus K (fun k => grad k t) (fun k => (x * nth k zc 0)%R)), (vsum_scale K x), vsum_nth_dist by exact F. ring.
      + intros k Hk. pose proof (dist_nth K zc k F Hk). assert (0 <= x * nth k zc 0)%R by (apply Rmult_le_pos; lra). lra.
    - rewrite (A I). rewrite count_absent by exact I. split; [ring|intros; lra].
  Qed.

  Lemma new_mean_proper doc z len : length z = length doc -> Forall (dist K) z ->
    Forall (fun e => (0 <= snd e)%R) doc -> len = tokens doc -> (1 <= len)%R -> proper K (new_mean doc z len).
  Proof.
    intros L F P E H. unfold new_mean. split.
    - intros k Hk. apply Rmult_le_pos; [|left; apply Rinv_0_lt_compat; lra]. apply rsum_nonneg. apply Forall_forall.
      intros y Hy. apply in_map_iff in Hy as ([[u x] zc] & <- & I).
      pose proof (in_combine_l _ _ _ _ I) as I1. apply in_combine_r in I. rewrite Forall_forall in F, P.
      pose proof (dist_nth K zc k (F _ I) Hk). specialize (P _ I1). cbn in P. apply Rmult_le_pos; lra.
    - unfold Rdiv. rewrite (vsum_scale_r K (/ len)%R). replace (vsum K _) with len; [field; lra|].
      unfold vsum. rewrite (rsum_swap (fun k e => let '((_, x), zc) := e in (nth k zc 0 * x)%R)). rewrite E. unfold tokens.
      clear E H P. revert z L F. induction doc as [|[u x] doc IH]; intros [|zc z] L F; try discriminate L; [reflexivity|].
      cbn [combine map rsum snd]. inversion F; subst. rewrite <- IH; [|cbn in L; lia|assumption]. f_equal.
      transitivity (vsum K (fun k => nth k zc 0 * x)%R); [|reflexivity].
      rewrite vsum_scale_r, vsum_nth_dist by assumption. ring.
  Qed.

  (** ** Many documents *)
  Section Docs.
    Context (docs : list words) (docLens prior : vec).
    Context (HK : 0 < K).
    Context (HD : 0 < length docs).
    Context (HC : corpus T docs docLens).
    Let D := length docs.

    (** After [n] visits the counter is at the last of them, [n-1] modulo [D]. *)
    Definition at_visit (n : nat) (d : Z) (log : list nat) : Prop :=
      d = (match n with O => -1 | S m => Z.of_nat (m mod D) end)%Z /\ rev log = map (fun i => i mod D) (seq 0 n).

    Lemma next_visit n d log : at_visit n d log ->
      (if (d + 1 <? Z.of_nat D)%Z then (d + 1)%Z else 0%Z) = Z.of_nat (n mod D) /\
      at_visit (S n) (Z.of_nat (n mod D)) (n mod D :: log).
    Proof.
      intros [E L]. assert (HD' : D <> 0) by (unfold D; lia). split.
      - subst d. destruct n as [|m].
        + rewrite Nat.mod_0_l by exact HD'. destruct (_ <? _)%Z; lia.
        + pose proof (Nat.mod_upper_bound m D HD'). pose proof (Nat.div_mod m D HD') as DM.
          destruct (Z.ltb_spec (Z.of_nat (m mod D) + 1) (Z.of_nat D)).
          * rewrite <- (Nat.mod_unique (S m) D (m / D) (m mod D + 1)); lia.
          * rewrite <- (Nat.mod_unique (S m) D (m / D + 1) 0); lia.
      - split; [reflexivity|]. cbn [rev]. rewrite L, seq_S, map_app. reflexivity.
    Qed.

    (** The words of visits [n] to [n + m]. *)
    Definition visited_words (n m : nat) (t : nat) : R := rsum (map (fun i => count (nth (i mod D) docs []) t) (seq n m)).

    Lemma visits_spec word m : forall n d means grad log, at_visit n d log ->
      exists d' means' grad' log',
        visits docs docLens prior m word (d, means, grad, log) = Ok (d', means', grad', log') /\
        at_visit (n + m) d' log' /\
        (forall t, vsum K (fun k => grad' k t) = (vsum K (fun k => grad k t) + visited_words n m t)%R) /\
        (forall k t, k < K -> (grad k t <= grad' k t)%R) /\
        (forall i, (In i (map (fun i => i mod D) (seq n m)) -> proper K (means' i)) /\
                   (~ In i (map (fun i => i mod D) (seq n m)) -> means' i = means i)).
    Proof.
      induction m as [|m IH]; intros n d means grad log A.
      - exists d, means, grad, log. split; [reflexivity|]. rewrite Nat.add_0_r. split; [exact A|].
        split; [|split; [intros; lra|]].
        + intros t. unfold visited_words. cbn. ring.
        + intros i. split; [intros []|reflexivity].
      - destruct (next_visit n d log A) as [E A'].
        assert (Hi : n mod D < length docs) by (apply Nat.mod_upper_bound; unfold D; lia).
        destruct (nth_error docs (n mod D)) as [doc|] eqn:ED; [|apply nth_error_None in ED; lia].
        pose proof (nth_error_nth docs (n mod D) [] ED) as ED'.
        destruct HC as [HF HL]. destruct (HL _ Hi) as [HL1 HL2]. rewrite ED' in HL1.
        rewrite Forall_forall in HF. destruct (HF doc (nth_error_In _ _ ED)) as [ND FP].
        assert (P : Forall (fun e => (0 <= snd e)%R) doc) by (eapply Forall_impl; [|exact FP]; intros e He; apply He).
        cbn [VbModel.visits]. unfold VbModel.visit. fold D. rewrite E, Nat2Z.id. unfold get_. rewrite ED. cbn [bind].
        destruct (infer_ok doc (docLens (n mod D)) (means (n mod D)) prior
                   (fun k t => psi (word k t)) (fun k => psi (vsum T (word k))) HK) as (z & EZ & Lz & Fz).
        rewrite EZ. cbn [bind].
        destruct (IH (S n) _ (set_row means (n mod D) (new_mean doc z (docLens (n mod D)))) (add_words doc z grad) _ A')
          as (d' & means' & grad' & log' & EV & A2 & G & Gle & M).
        exists d', means', grad', log'. split; [exact EV|]. split; [replace (n + S m) with (S n + m) by lia; exact A2|].
        split; [|split].
        + intros t. rewrite G. destruct (add_words_spec doc z grad t Lz Fz ND P) as [-> _].
          unfold visited_words. cbn [seq map rsum]. rewrite ED'. ring.
        + intros k t Hk. eapply Rle_trans; [|apply Gle, Hk]. apply (add_words_spec doc z grad t Lz Fz ND P), Hk.
        + intros i. destruct (M i) as [M1 M2]. cbn [seq map In]. destruct (in_dec Nat.eq_dec i (map (fun i => i mod D) (seq (S n) m))) as [I|I].
          * split; [intros _; apply M1, I|intros H; exfalso; tauto].
          * rewrite (M2 I). unfold set_row. destruct (Nat.eqb_spec i (n mod D)) as [->|NE].
            -- split; [|intros H; exfalso; tauto]. intros _.
               destruct (new_mean_proper doc z (docLens (n mod D)) Lz Fz P HL1 HL2) as [Q1 Q2]. split; assumption.
            -- split; [intros [H|H]; [congruence|contradiction]|reflexivity].
    Qed.

    (** ** Whole runs.  [J n s]: what [n] visits leave, apart from the word parameters. *)
    Definition seen_means (n : nat) (s : vstate) (means0 : mat) : Prop :=
      forall i, (In i (map (fun i => i mod D) (seq 0 n)) -> proper K (v_means s i)) /\
                (~ In i (map (fun i => i mod D) (seq 0 n)) -> v_means s i = means0 i).

    Definition grad_of (vp : R) (bs b : nat) (grad : mat) : Prop :=
      (forall k t, k < K -> (vp <= grad k t)%R) /\
      forall t, vsum K (fun k => grad k t) = (INR K * vp + visited_words (b * bs) bs t)%R.

    Lemma seen_trans n m means0 means1 means2 :
      (forall i, (In i (map (fun i => i mod D) (seq 0 n)) -> proper K (means1 i)) /\
                 (~ In i (map (fun i => i mod D) (seq 0 n)) -> means1 i = means0 i)) ->
      (forall i, (In i (map (fun i => i mod D) (seq n m)) -> proper K (means2 i)) /\
                 (~ In i (map (fun i => i mod D) (seq n m)) -> means2 i = means1 i)) ->
      (forall i, (In i (map (fun i => i mod D) (seq 0 (n + m))) -> proper K (means2 i)) /\
                 (~ In i (map (fun i => i mod D) (seq 0 (n + m))) -> means2 i = means0 i)).
    Proof.
      intros H1 H2 i. rewrite seq_app, map_app, Nat.add_0_l.
      destruct (H1 i) as [A1 A2], (H2 i) as [B1 B2]. split.
      - intros I. destruct (in_dec Nat.eq_dec i (map (fun i => i mod D) (seq n m))) as [J|J]; [apply B1, J|].
        rewrite (B2 J). apply A1. apply in_app_or in I. tauto.
      - intros I. rewrite B2, A2; [reflexivity| |]; intros J; apply I, in_or_app; tauto.
    Qed.

    Lemma batches_spec vp p bs means0 (W : nat -> mat -> Prop) :
      (forall b s d means grad log, W b (v_word s) -> grad_of vp bs b grad ->
         exists s', adjust bound T docLens prior p b s d means grad log = Ok s' /\
           v_d s' = d /\ v_means s' = means /\ v_log s' = log /\ W (S b) (v_word s')) ->
      forall m b s, W b (v_word s) -> at_visit (b * bs) (v_d s) (v_log s) -> seen_means (b * bs) s means0 ->
      exists s', batches psi bound K T docs docLens prior vp p bs m b s = Ok s' /\
        at_visit ((b + m) * bs) (v_d s') (v_log s') /\ seen_means ((b + m) * bs) s' means0 /\ W (b + m) (v_word s').
    Proof.
      intros HA. induction m as [|m IH]; intros b s HW A SM.
      - exists s. rewrite Nat.add_0_r. repeat split; try assumption; apply A || apply SM; assumption.
      - cbn [batches]. unfold one_batch. cbv zeta.
        destruct (visits_spec (v_word s) bs (b * bs) (v_d s) (v_means s) (fun _ _ => vp) (v_log s) A)
          as (d' & means' & grad' & log' & EV & A2 & G & Gle & M).
        rewrite EV. cbn [bind].
        destruct (HA b s d' means' grad' log' HW) as (s' & E & Ed & Em & El & HW').
        { split; [intros k t Hk; apply (Gle k t Hk)|]. intros t. rewrite G, vsum_const. reflexivity. }
        rewrite E. cbn [bind]. destruct (IH (S b) s' HW') as (s2 & E2 & A3 & SM3 & HW3).
        + rewrite Ed, El. replace (S b * bs) with (b * bs + bs) by lia. exact A2.
        + intros i. rewrite Em. replace (S b * bs) with (b * bs + bs) by lia. apply (seen_trans _ _ means0 (v_means s)); assumption.
        + exists s2. replace (b + S m) with (S b + m) by lia. auto.
    Qed.

    Lemma visited_all b t : visited_words (b * D) D t = word_total docs t.
    Proof.
      unfold visited_words, word_total. replace (map (fun doc => count doc t) docs) with (map (fun i => count (nth i docs []) t) (seq 0 D)).
      - f_equal. replace (seq (b * D) D) with (map (fun i => b * D + i) (seq 0 D)).
        + rewrite map_map. apply map_ext_in. intros i Hi. apply in_seq in Hi.
          replace ((b * D + i) mod D) with i; [reflexivity|]. rewrite Nat.add_comm, Nat.mod_add by lia. symmetry. apply Nat.mod_small. lia.
        + assert (X : forall m c a, map (fun i => c + i) (seq a m) = seq (c + a) m).
          { induction m as [|m IH]; intros c a; [reflexivity|]. cbn [seq map]. f_equal. rewrite IH. f_equal. lia. }
          rewrite X. f_equal. lia.
      - rewrite <- (map_map (fun i => nth i docs []) (fun doc => count doc t)). f_equal. symmetry. apply list_nth_seq.
    Qed.
  End Docs.
End Proofs.

Lemma in_mod_seq D n i : 0 < D -> D <= n -> i < D -> In i (map (fun i => i mod D) (seq 0 n)).
Proof. intros HD Hn Hi. apply in_map_iff. exists i. split; [apply Nat.mod_small, Hi|apply in_seq; lia]. Qed.
