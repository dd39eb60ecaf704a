From Coq Require Import List ZArith QArith Qfield Arith Bool Lia Lqa Permutation.
From Verif Require Import Base EvalSpec EvalProofs CvbModel CvbProofs CvbMore GibbsModel GibbsSpec.
Import ListNotations.
Open Scope nat_scope.

(** ** Counting *)
Lemma count_nil {A} (p : A -> bool) : count p [] = 0%Z. Proof. reflexivity. Qed.
Lemma count_cons {A} (p : A -> bool) x l : count p (x :: l) = (Z.b2z (p x) + count p l)%Z.
Proof. unfold count. cbn [filter]. destruct (p x); cbn [length Z.b2z]; lia. Qed.
Lemma count_app {A} (p : A -> bool) l l' : count p (l ++ l') = (count p l + count p l')%Z.
Proof. induction l as [|x l IH]; cbn [app]; [reflexivity|]. rewrite !count_cons, IH. lia. Qed.
Lemma count_ext {A} (p q : A -> bool) l : (forall x, In x l -> p x = q x) -> count p l = count q l.
Proof.
  induction l as [|x l IH]; intros H; [reflexivity|]. rewrite !count_cons, (H x) by (left; reflexivity).
  rewrite IH; [reflexivity|]. intros y Hy. apply H. right; exact Hy.
Qed.
Lemma count_nonneg {A} (p : A -> bool) l : (0 <= count p l)%Z.
Proof. unfold count. lia. Qed.
Lemma count_member {A} (p : A -> bool) l x : In x l -> p x = true -> (1 <= count p l)%Z.
Proof.
  induction l as [|y l IH]; intros Hi Hp; [contradiction|]. rewrite count_cons.
  destruct Hi as [->|Hi].
  - rewrite Hp. pose proof (count_nonneg p l). cbn [Z.b2z]. lia.
  - specialize (IH Hi Hp). destruct (p y); cbn [Z.b2z]; lia.
Qed.

Lemma count_upd_notin (p : nat -> nat -> bool) z n k l : ~ In n l ->
  count (fun m => p m (upd1 z n k m)) l = count (fun m => p m (z m)) l.
Proof.
  intros H. apply count_ext. intros m Hm. unfold upd1.
  destruct (m =? n) eqn:E; [|reflexivity]. apply Nat.eqb_eq in E. subst. contradiction.
Qed.
Lemma count_upd_in (p : nat -> nat -> bool) z n k l : NoDup l -> In n l ->
  count (fun m => p m (upd1 z n k m)) l
  = (count (fun m => p m (z m)) l - Z.b2z (p n (z n)) + Z.b2z (p n k))%Z.
Proof.
  intros Hd Hi. induction l as [|x l IH]; [contradiction|]. inversion Hd; subst.
  rewrite !count_cons. destruct (Nat.eq_dec x n) as [->|Hne].
  - rewrite count_upd_notin by assumption. unfold upd1. rewrite Nat.eqb_refl. lia.
  - destruct Hi as [->|Hi]; [contradiction|]. rewrite IH by assumption.
    assert (E : upd1 z n k x = z x).
    { unfold upd1. destruct (x =? n) eqn:E; [apply Nat.eqb_eq in E; contradiction|reflexivity]. }
    rewrite E. lia.
Qed.

(** ** Offsets *)
Lemma offset_S lens d : offset lens (S d) = offset lens d + nth d lens 0.
Proof.
  unfold offset. revert d. induction lens as [|x lens IH]; intros d.
  - rewrite !firstn_nil. destruct d; reflexivity.
  - destruct d; cbn [firstn sumN nth]; [lia|]. specialize (IH d). cbn [firstn] in IH. lia.
Qed.
Lemma offset_all lens : offset lens (length lens) = total lens.
Proof. unfold offset, total. rewrite firstn_all. reflexivity. Qed.
Lemma offset_mono lens d d' : d <= d' -> offset lens d <= offset lens d'.
Proof. induction 1 as [|d' H IH]; [lia|]. rewrite offset_S. lia. Qed.
Lemma offset_end lens d : d < length lens -> offset lens d + nth d lens 0 <= total lens.
Proof. intros H. rewrite <- offset_S, <- offset_all. apply offset_mono. lia. Qed.
Lemma doc_token_in lens d i : i < nth d lens 0 -> In (offset lens d + i) (doc_tokens lens d).
Proof. intros H. apply in_seq. lia. Qed.
Lemma doc_token_notin lens d d' i : i < nth d lens 0 -> d <> d' -> ~ In (offset lens d + i) (doc_tokens lens d').
Proof.
  intros Hi Hne Hin. apply in_seq in Hin.
  destruct (Nat.lt_total d d') as [H|[H|H]]; [|contradiction|].
  - pose proof (offset_mono lens (S d) d' ltac:(lia)) as G. rewrite offset_S in G. lia.
  - pose proof (offset_mono lens (S d') d ltac:(lia)) as G. rewrite offset_S in G. lia.
Qed.

Lemma inc1_same f i x : inc1 f i x i = (f i + x)%Z.
Proof. unfold inc1, upd1. rewrite Nat.eqb_refl. reflexivity. Qed.
Lemma inc1_at f i x j : inc1 f i x j = (f j + if (j =? i)%nat then x else 0)%Z.
Proof. unfold inc1, upd1. destruct (j =? i) eqn:E; [|lia]. apply Nat.eqb_eq in E. subst. lia. Qed.
Lemma inc2_at f i j x i' j' : inc2 f i j x i' j' = (f i' j' + if ((i' =? i) && (j' =? j))%nat then x else 0)%Z.
Proof.
  unfold inc2, upd2, upd1. destruct (i' =? i) eqn:E; cbn [andb]; [|lia]. apply Nat.eqb_eq in E. subst.
  destruct (j' =? j) eqn:E; [|lia]. apply Nat.eqb_eq in E. subst. lia.
Qed.

Lemma ok_inj {A} (x y : A) : Ok x = Ok y -> x = y. Proof. intros [= ->]. reflexivity. Qed.

  Lemma positions_bound len m p : 0 < len -> forall x, In x (positions len m p) -> x < len.
  Proof.
    intros Hl. revert p. induction m as [|m IH]; intros p x; cbn [positions In]; [contradiction|].
    intros [<-|H]; [apply Nat.mod_upper_bound; lia|eapply IH; exact H].
  Qed.

  Lemma fold_raise {A B} (f : A -> B -> res A) l e :
    fold_left (fun rs b => do s <- rs; f s b) l (Raise e) = Raise e.
  Proof. induction l as [|x l IH]; [reflexivity|exact IH]. Qed.

  Lemma fold_inv {A B} (P : A -> Prop) (f : A -> B -> res A) l s s' :
    P s -> (forall x s s', In x l -> P s -> f s x = Ok s' -> P s') ->
    fold_left (fun rs b => do s <- rs; f s b) l (Ok s) = Ok s' -> P s'.
  Proof.
    revert s. induction l as [|x l IH]; intros s Hs Hf; cbn [fold_left].
    - intros [= <-]. exact Hs.
    - cbn [bind]. destruct (f s x) as [s1|e] eqn:E.
      + apply IH; [|intros y t t' Hy; apply Hf; right; exact Hy].
        apply (Hf x s s1); [left; reflexivity|exact Hs|exact E].
      + rewrite fold_raise. discriminate.
  Qed.

(** ** The invariant *)
Section Inv.
  Context (K T : nat) (w : nat -> nat) (lens : list nat) (isQuery : bool).
  Context (bkv : nat -> nat -> Z) (bk : nat -> Z).
  Let D := length lens.

  (** In training the topic-word counts are the tallies on top of fixed
      counts; in a query they stay as they are. *)
  Definition counts_ok (s : gst) : Prop :=
    assigned lens K (g_z s) /\
    (forall d k, d < D -> g_dk s d k = doc_topic lens (g_z s) d k) /\
    (forall k v, g_kv s k v = (bkv k v + if isQuery then 0 else topic_word w lens (g_z s) k v)%Z) /\
    (forall k, g_k s k = (bk k + if isQuery then 0 else topic_all lens (g_z s) k)%Z).

  Context (a b : nat -> Q) (special : gst -> nat -> nat -> Z).
  Hypothesis HK : K <= 256.
  Hypothesis Hspecial : forall s d v, (special s d v < Z.of_nat K)%Z.

  Lemma walk_range fuel dist k x r : 0 < K -> walk K fuel dist k x = Ok r -> r = k \/ (0 <= r < Z.of_nat K)%Z.
  Proof.
    intros HK0. revert k x. induction fuel as [|f IH]; intros k x; cbn [walk]; destruct (Qle_bool x 0);
      try discriminate; try (intros [= ->]; left; reflexivity).
    intros H. apply IH in H. right. destruct H as [->|H]; [|exact H]. apply Z.mod_pos_bound. lia.
  Qed.

  Lemma draw_range s d v r z : 0 < K ->
    draw_topic K T a b special s d v r = Ok z -> (z < Z.of_nat K)%Z.
  Proof.
    intros HK0. unfold draw_topic. destruct (all_some _) as [dist|].
    - intros H. apply walk_range in H; [|assumption]. lia.
    - intros [= <-]. apply Hspecial.
  Qed.

  Lemma visit_ok d i r s s' : d < D -> i < nth d lens 0 -> counts_ok s ->
    visit K T w a b isQuery special d (offset lens d + i) r s = Ok s' -> counts_ok s'.
  Proof.
    intros Hd Hi (H1 & H2 & H3 & H4) E. unfold visit in E. apply bind_ok in E. destruct E as (z & Ez & E).
    pose proof (offset_end lens d Hd) as Hend.
    set (n := offset lens d + i) in *.
    assert (Hn : n < total lens) by (subst n; lia).
    assert (HK0 : 0 < K) by (pose proof (H1 n Hn); lia).
    apply draw_range in Ez; [|assumption].
    destruct (z <? 0)%Z eqn:Ez0; [discriminate|]. apply ok_inj in E. subst s'.
    set (k' := Z.to_nat z). assert (Hk' : k' < K) by (subst k'; lia).
    assert (Em : k' mod u8 = k') by (apply Nat.mod_small; unfold u8; lia). rewrite Em.
    cbn [g_z g_dk g_kv g_k].
    assert (Hall : In n (seq 0 (total lens))) by (apply in_seq; lia).
    pose proof (seq_NoDup (total lens) 0) as Hnd.
    split; [|split; [|split]]; cbn [g_z g_dk g_kv g_k].
    - intros m Hm. unfold upd1. destruct (m =? n); [exact Hk'|apply H1; exact Hm].
    - intros d0 k Hd0. rewrite !inc2_at, (H2 d0 k Hd0). unfold doc_topic.
      destruct (Nat.eq_dec d d0) as [<-|Hne].
      + rewrite (count_upd_in (fun _ j => j =? k) (g_z s) n k' (doc_tokens lens d));
          [|apply seq_NoDup|apply doc_token_in; exact Hi].
        rewrite Nat.eqb_refl. cbn [andb]. rewrite (Nat.eqb_sym k (g_z s n)), (Nat.eqb_sym k k').
        destruct (g_z s n =? k), (k' =? k); cbn [Z.b2z]; lia.
      + rewrite (count_upd_notin (fun _ j => j =? k) (g_z s) n k' (doc_tokens lens d0))
          by (apply doc_token_notin; assumption).
        destruct (d0 =? d) eqn:E; [apply Nat.eqb_eq in E; congruence|]. cbn [andb]. lia.
    - intros k v. rewrite !inc2_at, (H3 k v). unfold topic_word, delta.
      destruct isQuery; [repeat match goal with |- context [if ?c then _ else _] => destruct c end; lia|].
      rewrite (count_upd_in (fun m j => (j =? k) && (w m =? v)) (g_z s) n k' (seq 0 (total lens)) Hnd Hall).
      rewrite (Nat.eqb_sym k (g_z s n)), (Nat.eqb_sym k k'), (Nat.eqb_sym v (w n)).
      destruct (g_z s n =? k), (k' =? k), (w n =? v); cbn [Z.b2z andb]; lia.
    - intros k. rewrite !inc1_at, (H4 k). unfold topic_all, delta.
      destruct isQuery; [repeat match goal with |- context [if ?c then _ else _] => destruct c end; lia|].
      rewrite (count_upd_in (fun _ j => j =? k) (g_z s) n k' (seq 0 (total lens)) Hnd Hall).
      rewrite (Nat.eqb_sym k (g_z s n)), (Nat.eqb_sym k k').
      destruct (g_z s n =? k), (k' =? k); cbn [Z.b2z]; lia.
  Qed.

  Context (start : nat -> nat -> nat) (u : nat -> nat -> nat -> Q).

  Lemma doc_sweep_ok sw d s s' : d < D -> counts_ok s ->
    doc_sweep K T w lens a b isQuery special start u sw d (offset lens d) s = Ok s' -> counts_ok s'.
  Proof.
    intros Hd Hs. unfold doc_sweep.
    apply (fold_inv counts_ok (fun s ip => visit K T w a b isQuery special d (offset lens d + snd ip) (u sw d (fst ip)) s));
      [exact Hs|].
    intros [i p] t t' Hin Ht. cbn [fst snd]. apply visit_ok; try assumption.
    apply in_combine_r in Hin. unfold visits in Hin.
    destruct (len_ lens d) as [|l] eqn:El; [contradiction|]. unfold len_ in El. rewrite El.
    eapply positions_bound; [|exact Hin]. lia.
  Qed.

  Lemma sweep_docs_ok sw s s' : counts_ok s ->
    sweep_docs K T w lens a b isQuery special start u sw s = Ok s' -> counts_ok s'.
  Proof.
    intros Hs E. unfold sweep_docs in E. apply bind_ok in E. destruct E as ((o & t) & E & [= <-]). cbn [snd].
    assert (G : forall m, m <= D -> forall o t,
      fold_left (fun ros d => do os <- ros;
        do s' <- doc_sweep K T w lens a b isQuery special start u sw d (fst os) (snd os);
        Ok (fst os + len_ lens d, s')) (seq 0 m) (Ok (0, s)) = Ok (o, t) -> o = offset lens m /\ counts_ok t).
    { induction m as [|m IH]; intros Hm o' t' E'.
      - injection E' as <- <-. split; [reflexivity|exact Hs].
      - rewrite seq_S, fold_left_app in E'. cbn [fold_left Nat.add] in E'.
        apply bind_ok in E'. destruct E' as ((o1 & t1) & E1 & E').
        destruct (IH ltac:(lia) o1 t1 E1) as (-> & Ht1). cbn [fst snd] in E'.
        apply bind_ok in E'. destruct E' as (t2 & E2 & [= <- <-]).
        split; [rewrite offset_S; reflexivity|]. eapply doc_sweep_ok; [|exact Ht1|exact E2]. lia. }
    apply (G D ltac:(lia) o t E).
  Qed.

  Lemma sample_ok thin count s c s' c' : counts_ok s ->
    sample K T w lens a b isQuery special start u count thin s c = Ok (s', c') -> counts_ok s'.
  Proof.
    intros Hs E.
    apply (fold_inv (fun sc => counts_ok (fst sc))
             (fun sc sw => do s' <- sweep_docs K T w lens a b isQuery special start u sw (fst sc);
                if thin =? 0 then Raise ZeroDivisionError
                else Ok (s', if (sw + 1) mod thin =? 0 then record K T lens a b isQuery s' (snd sc) else snd sc))
             (seq 0 (Z.to_nat count)) (s, mkAcc (topic_sum c) (vocab_sum c) 0) (s', c')); [exact Hs| |exact E].
    intros sw [t ct] [t' ct'] _ Ht E'. cbn [fst snd] in *. apply bind_ok in E'. destruct E' as (t1 & E1 & E').
    destruct (thin =? 0); [discriminate|]. injection E' as <- <-. eapply sweep_docs_ok; eassumption.
  Qed.
End Inv.

(** ** Initial counts *)
Section Init.
  Context (w : nat -> nat) (lens : list nat).
  Let D := length lens.

  Lemma add_tokens d m n s :
    fold_left (add_token w d) (seq 0 m) (n, s) =
      (n + m, snd (fold_left (add_token w d) (seq 0 m) (n, s))) /\
    let s' := snd (fold_left (add_token w d) (seq 0 m) (n, s)) in
    g_z s' = g_z s /\
    (forall d' k, g_dk s' d' k = (g_dk s d' k + if (d' =? d)%nat then count (fun i => (g_z s i =? k)%nat) (seq n m) else 0)%Z) /\
    (forall k v, g_kv s' k v = (g_kv s k v + count (fun i => ((g_z s i =? k) && (w i =? v))%nat) (seq n m))%Z) /\
    (forall k, g_k s' k = (g_k s k + count (fun i => (g_z s i =? k)%nat) (seq n m))%Z).
  Proof.
    induction m as [|m (E & Hz & H1 & H2 & H3)].
    - cbn [seq fold_left snd]. split; [f_equal; lia|]. repeat split; intros; rewrite ?count_nil; try lia.
      destruct (d' =? d); lia.
    - rewrite seq_S, fold_left_app, E. cbn [fold_left Nat.add add_token snd].
      set (s1 := snd (fold_left (add_token w d) (seq 0 m) (n, s))) in *.
      assert (Hs : seq n (S m) = seq n m ++ [n + m]) by apply seq_S.
      split; [f_equal; lia|]. cbn zeta. cbn [g_z g_dk g_kv g_k]. rewrite Hz.
      split; [reflexivity|]. split; [|split].
      + intros d' k. rewrite Hs, inc2_at, H1, count_app, count_cons, count_nil, (Nat.eqb_sym k).
        destruct (d' =? d), (g_z s (n + m) =? k); cbn [Z.b2z andb]; lia.
      + intros k v. rewrite Hs, inc2_at, H2, count_app, count_cons, count_nil, (Nat.eqb_sym k), (Nat.eqb_sym v).
        destruct (g_z s (n + m) =? k), (w (n + m) =? v); cbn [Z.b2z andb]; lia.
      + intros k. rewrite Hs, inc1_at, H3, count_app, count_cons, count_nil, (Nat.eqb_sym k).
        destruct (g_z s (n + m) =? k); cbn [Z.b2z]; lia.
  Qed.

  Lemma sum_suff_stats_ok z kv k_ :
    let s' := sum_suff_stats w lens (mkG z (fun _ _ => 0%Z) kv k_) in
    g_z s' = z /\
    (forall d k, d < D -> g_dk s' d k = doc_topic lens z d k) /\
    (forall k v, g_kv s' k v = (kv k v + topic_word w lens z k v)%Z) /\
    (forall k, g_k s' k = (k_ k + topic_all lens z k)%Z).
  Proof.
    assert (G : forall m, m <= D -> exists s',
      fold_left (fun ns d => fold_left (add_token w d) (seq 0 (len_ lens d)) ns) (seq 0 m)
        (0, mkG z (fun _ _ => 0%Z) kv k_) = (offset lens m, s') /\
      g_z s' = z /\
      (forall d k, g_dk s' d k = if d <? m then doc_topic lens z d k else 0%Z) /\
      (forall k v, g_kv s' k v = (kv k v + count (fun i => ((z i =? k) && (w i =? v))%nat) (seq 0 (offset lens m)))%Z) /\
      (forall k, g_k s' k = (k_ k + count (fun i => (z i =? k)%nat) (seq 0 (offset lens m)))%Z)).
    { induction m as [|m IH]; intros Hm.
      - exists (mkG z (fun _ _ => 0%Z) kv k_). cbn [seq fold_left].
        split; [reflexivity|]. cbn [g_z g_dk g_kv g_k]. change (offset lens 0) with 0. cbn [seq].
        repeat split; intros; rewrite ?count_nil; lia.
      - destruct (IH ltac:(lia)) as (s1 & E & Hz & H1 & H2 & H3).
        rewrite seq_S, fold_left_app, E. cbn [fold_left Nat.add].
        destruct (add_tokens m (len_ lens m) (offset lens m) s1) as (E2 & Hz2 & G1 & G2 & G3).
        rewrite E2. eexists. split; [rewrite offset_S; reflexivity|].
        rewrite Hz in *. split; [exact Hz2|]. rewrite offset_S, seq_app. split; [|split].
        + intros d k. rewrite G1, H1. unfold doc_topic, doc_tokens, len_.
          destruct (Nat.eqb_spec d m) as [->|Hne].
          * rewrite Nat.ltb_irrefl. replace (m <? S m) with true by (symmetry; apply Nat.ltb_lt; lia). lia.
          * destruct (Nat.ltb_spec d m), (Nat.ltb_spec d (S m)); lia.
        + intros k v. rewrite G2, H2, count_app. unfold len_. cbn [Nat.add]. lia.
        + intros k. rewrite G3, H3, count_app. unfold len_. cbn [Nat.add]. lia. }
    destruct (G D ltac:(lia)) as (s' & E & Hz & H1 & H2 & H3).
    unfold sum_suff_stats. fold D. rewrite E. cbn [snd]. cbn zeta.
    split; [exact Hz|]. split; [|split].
    - intros d k Hd. rewrite H1. replace (d <? D) with true by (symmetry; apply Nat.ltb_lt; exact Hd). reflexivity.
    - intros k v. rewrite H2. subst D. rewrite offset_all. reflexivity.
    - intros k. rewrite H3. subst D. rewrite offset_all. reflexivity.
  Qed.
End Init.
