From Coq Require Import List ZArith QArith Qfield Arith Bool Lia Lqa Permutation.
From Verif Require Import Base EvalSpec EvalProofs CvbModel CvbProofs CvbMore GibbsModel GibbsSpec GibbsProofs GibbsMore.
Import ListNotations.
Open Scope nat_scope.

Lemma fold_total {A B} (P : A -> Prop) (f : A -> B -> res A) l s :
  P s -> (forall x s, In x l -> P s -> exists s', f s x = Ok s' /\ P s') ->
  exists s', fold_left (fun rs b => do s <- rs; f s b) l (Ok s) = Ok s' /\ P s'.
Proof.
  revert s. induction l as [|x l IH]; intros s Hs Hf; cbn [fold_left].
  - exists s. split; [reflexivity|exact Hs].
  - cbn [bind]. destruct (Hf x s (or_introl eq_refl) Hs) as (s1 & -> & H1).
    apply IH; [exact H1|]. intros y t Hy. apply Hf. right; exact Hy.
Qed.

Section Runs.
  Context (K T : nat) (w : nat -> nat) (lens : list nat) (isQuery : bool).
  Context (bkv : nat -> nat -> Z) (bk : nat -> Z) (a b : nat -> Q) (special : gst -> nat -> nat -> Z).
  Context (start : nat -> nat -> nat) (u : nat -> nat -> nat -> Q).
  Let D := length lens.
  Let ok := counts_ok K w lens isQuery bkv bk.
  Hypothesis HK : K <= 256.
  Hypothesis Hspecial : forall s d v, (special s d v < Z.of_nat K)%Z.

  Lemma sweep_total sw s : proper K T w lens bkv bk a b ->
    (forall d i, (0 < u sw d i)%Q /\ (u sw d i <= 1)%Q) -> ok s ->
    exists s', sweep_docs K T w lens a b isQuery special start u sw s = Ok s' /\ ok s'.
  Proof.
    intros HP Hu Hs. unfold sweep_docs.
    assert (G : forall m, m <= D -> exists t,
      fold_left (fun ros d => do os <- ros;
        do s' <- doc_sweep K T w lens a b isQuery special start u sw d (fst os) (snd os);
        Ok (fst os + len_ lens d, s')) (seq 0 m) (Ok (0, s)) = Ok (offset lens m, t) /\ ok t).
    { induction m as [|m IH]; intros Hm.
      - exists s. split; [reflexivity|exact Hs].
      - destruct (IH ltac:(lia)) as (t & E & Ht). rewrite seq_S, fold_left_app, E. cbn [fold_left Nat.add bind fst snd].
        unfold doc_sweep.
        destruct (fold_total ok (fun s ip => visit K T w a b isQuery special m (offset lens m + snd ip) (u sw m (fst ip)) s)
                   (combine (seq 0 (len_ lens m)) (visits lens start sw m)) t Ht) as (t' & E' & Ht').
        { intros [i p] t0 Hin Ht0. cbn [fst snd].
          assert (Hp : p < nth m lens 0).
          { apply in_combine_r in Hin. unfold visits in Hin.
            destruct (len_ lens m) as [|l] eqn:El; [contradiction|]. unfold len_ in El. rewrite El.
            eapply positions_bound; [|exact Hin]. lia. }
          destruct (visit_total K T w lens isQuery bkv bk a b special HP m p (u sw m i) t0 HK) as (k & s' & Ev & _);
            try assumption; try lia; try apply Hu.
          exists s'. split; [exact Ev|]. eapply visit_ok; try eassumption; lia. }
        rewrite E'. cbn [bind]. exists t'. split; [|exact Ht']. rewrite offset_S. reflexivity. }
    destruct (G D ltac:(lia)) as (t & E & Ht). unfold D in E. rewrite E. cbn [bind snd]. exists t. split; [reflexivity|exact Ht].
  Qed.

  Lemma sample_total count thin s c : proper K T w lens bkv bk a b ->
    (forall sw d i, (0 < u sw d i)%Q /\ (u sw d i <= 1)%Q) -> ok s -> 0 < thin ->
    exists r, sample K T w lens a b isQuery special start u count thin s c = Ok r /\ ok (fst r).
  Proof.
    intros HP Hu Hs Ht. unfold sample, sample_step.
    apply (fold_total (fun sc => ok (fst sc))
      (fun sc sw => do s' <- sweep_docs K T w lens a b isQuery special start u sw (fst sc);
                if thin =? 0 then Raise ZeroDivisionError
                else Ok (s', if (sw + 1) mod thin =? 0 then record K T lens a b isQuery s' (snd sc) else snd sc))); [exact Hs|].
    intros sw [t ct] _ Hok. cbn [fst snd] in *.
    destruct (sweep_total sw t HP (Hu sw) Hok) as (t' & -> & Ht'). cbn [bind].
    destruct (Nat.eqb_spec thin 0); [lia|]. eexists. split; [reflexivity|exact Ht'].
  Qed.

  (** The state after [m] sweeps. *)
  Let run m thin s c := fold_left (sample_step K T w lens a b isQuery special start u thin) (seq 0 m)
      (Ok (s, mkAcc (topic_sum c) (vocab_sum c) 0)).

  Lemma run_S m thin s c : run (S m) thin s c = sample_step K T w lens a b isQuery special start u thin (run m thin s c) m.
  Proof. unfold run. rewrite seq_S, fold_left_app. reflexivity. Qed.

  Definition sample_topic (s : gst) (d k : nat) : Q :=
    ((inject_Z (g_dk s d k) + a k) / (qnat (len_ lens d) + qsum a (seq 0 K)))%Q.
  Definition sample_vocab (s : gst) (k v : nat) : Q :=
    ((inject_Z (g_kv s k v) + b v) / (inject_Z (g_k s k) + qsum b (seq 0 T)))%Q.

  Lemma run_samples m thin s c s' c' : run m thin s c = Ok (s', c') -> (thin <> 0 \/ m = 0) /\
    exists l, length l = m / thin /\ taken c' = m / thin /\
      (forall d k, (topic_sum c' d k == topic_sum c d k + qsum (fun t => sample_topic t d k) l)%Q) /\
      (forall k v, (vocab_sum c' k v == vocab_sum c k v + if isQuery then 0 else qsum (fun t => sample_vocab t k v) l)%Q) /\
      (isQuery = true -> vocab_sum c' = vocab_sum c) /\
      (forall i t, nth_error l i = Some t -> exists ct, run ((i + 1) * thin) thin s c = Ok (t, ct)).
  Proof.
    clear ok HK Hspecial bkv bk D.
    revert s' c'. induction m as [|m IH]; intros s' c' E.
    - unfold run in E. cbn [seq fold_left] in E. injection E as <- <-.
      split; [right; reflexivity|]. exists []. cbn [length taken topic_sum vocab_sum].
      assert (H0 : 0 / thin = 0) by (destruct thin; [reflexivity|apply Nat.div_0_l; lia]). rewrite H0.
      split; [reflexivity|]. split; [reflexivity|]. split; [intros; rewrite qsum_nil; ring|].
      split; [intros; destruct isQuery; rewrite ?qsum_nil; ring|]. split; [reflexivity|].
      intros [|i] t; discriminate.
    - pose proof E as E0. rewrite run_S in E. unfold sample_step in E. apply bind_ok in E. destruct E as ((s1 & c1) & E1 & E).
      cbn [fst snd] in E. apply bind_ok in E. destruct E as (s2 & E2 & E).
      destruct (Nat.eqb_spec thin 0) as [->|Ht]; [discriminate|].
      split; [left; exact Ht|].
      destruct (IH _ _ E1) as (_ & l & L1 & L2 & L3 & L4 & L4' & L5).
      replace (m + 1) with (S m) in E by lia.
      pose proof (Nat.div_mod (S m) thin Ht) as Dm. pose proof (Nat.mod_upper_bound (S m) thin Ht) as Um.
      destruct (Nat.eqb_spec (S m mod thin) 0) as [Hm|Hm].
      + assert (Eq : S m / thin = m / thin + 1).
        { rewrite Hm in Dm. destruct (S m / thin) as [|q] eqn:Eq0; [lia|].
          rewrite (Nat.div_unique m thin q (thin - 1)); lia. }
        injection E as <- <-. exists (l ++ [s2]). rewrite app_length. cbn [length].
        split; [lia|]. cbn [record taken topic_sum vocab_sum]. split; [lia|]. split; [|split; [|split]].
        * intros d k. rewrite L3, qsum_app, qsum_cons, qsum_nil. unfold sample_topic. ring.
        * intros k v. specialize (L4 k v). destruct isQuery; [exact L4|].
          rewrite L4, qsum_app, qsum_cons, qsum_nil. unfold sample_vocab. ring.
        * intros Hq. rewrite Hq. apply L4'. exact Hq.
        * intros i t Hi. destruct (Nat.lt_ge_cases i (length l)) as [Hlt|Hge].
          -- rewrite nth_error_app1 in Hi by exact Hlt. apply L5. exact Hi.
          -- rewrite nth_error_app2 in Hi by exact Hge.
             destruct (i - length l) as [|x] eqn:Ex; [|destruct x; discriminate].
             injection Hi as <-. replace ((i + 1) * thin) with (S m) by nia. eexists. exact E0.
      + assert (Eq : S m / thin = m / thin).
        {           apply (Nat.div_unique m thin (S m / thin) (S m mod thin - 1)); [lia|]. lia. }
        injection E as <- <-. exists l. rewrite Eq. repeat split; assumption.
  Qed.

  Lemma sample_run count thin s c : sample K T w lens a b isQuery special start u count thin s c = run (Z.to_nat count) thin s c.
  Proof. reflexivity. Qed.

End Runs.

  Lemma sum_count (K : nat) (z : nat -> nat) (p : nat -> bool) l : (forall n, In n l -> z n < K) ->
    (qsum (fun k => inject_Z (count (fun n => (z n =? k) && p n) l)) (seq 0 K) == inject_Z (count p l))%Q.
  Proof.
    induction l as [|n l IH]; intros H.
    - rewrite count_nil. apply qsum_zero. intros; reflexivity.
    - rewrite count_cons, inject_Z_plus, <- IH by (intros; apply H; right; assumption).
      rewrite (qsum_ext _ (fun k => (if k =? z n then inject_Z (Z.b2z (p n)) else 0)
                            + inject_Z (count (fun n => (z n =? k) && p n) l))%Q).
      + rewrite qsum_plus, qsum_delta; [reflexivity|]. apply H. left; reflexivity.
      + intros k _. rewrite count_cons, inject_Z_plus, (Nat.eqb_sym k).
        destruct (z n =? k); cbn [andb]; reflexivity.
  Qed.
  Lemma count_true {A} (l : list A) : count (fun _ => true) l = Z.of_nat (length l).
  Proof. induction l as [|x l IH]; [reflexivity|]. rewrite count_cons, IH. cbn [length Z.b2z]. lia. Qed.
  Lemma sum_doc (K : nat) lens z d : assigned lens K z -> d < length lens ->
    (qsum (fun k => inject_Z (doc_topic lens z d k)) (seq 0 K) == qnat (len_ lens d))%Q.
  Proof.
    intros Hz Hd. pose proof (offset_end lens d Hd).
    rewrite (qsum_ext _ (fun k => inject_Z (count (fun n => (z n =? k) && true) (doc_tokens lens d)))).
    - rewrite (sum_count K z (fun _ => true)).
      + rewrite count_true. unfold doc_tokens. rewrite seq_length. reflexivity.
      + intros n Hn. apply in_seq in Hn. apply Hz. lia.
    - intros k _. unfold doc_topic. rewrite (count_ext _ (fun n => (z n =? k) && true)); [reflexivity|].
      intros; rewrite andb_true_r; reflexivity.
  Qed.

Lemma sum_words (z w : nat -> nat) T lens k : (forall n, n < total lens -> w n < T) ->
  (qsum (fun v => inject_Z (topic_word w lens z k v)) (seq 0 T) == inject_Z (topic_all lens z k))%Q.
Proof.
  intros H. rewrite <- (sum_count T w (fun n => z n =? k) (seq 0 (total lens))).
  - apply qsum_ext. intros v _. unfold topic_word.
    rewrite (count_ext _ (fun n => (w n =? v) && (z n =? k))); [reflexivity|]. intros; apply andb_comm.
  - intros n Hn. apply in_seq in Hn. apply H. lia.
Qed.
