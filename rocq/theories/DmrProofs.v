From Coq Require Import List ZArith QArith Qfield Arith Bool Lia Lqa Permutation.
From Verif Require Import Base EvalSpec EvalProofs CvbModel CvbProofs CvbMore GibbsModel GibbsSpec GibbsProofs GibbsMore GibbsRuns GibbsDist DmrModel.
Import ListNotations.
Open Scope nat_scope.

Lemma div_S_hit m thin : thin <> 0 -> (m + 1) mod thin = 0 -> (m + 1) / thin = m / thin + 1.
Proof.
  intros Ht Hm. pose proof (Nat.div_mod (m + 1) thin Ht) as Dm. rewrite Hm in Dm.
  destruct ((m + 1) / thin) as [|q] eqn:Eq0; [lia|]. rewrite (Nat.div_unique m thin q (thin - 1)); lia.
Qed.
Lemma div_S_miss m thin : thin <> 0 -> (m + 1) mod thin <> 0 -> (m + 1) / thin = m / thin.
Proof.
  intros Ht Hm. pose proof (Nat.div_mod (m + 1) thin Ht) as Dm. pose proof (Nat.mod_upper_bound (m + 1) thin Ht).
  apply (Nat.div_unique m thin ((m + 1) / thin) ((m + 1) mod thin - 1)); lia.
Qed.

Section Sample.
  Context (K T : nat) (w : nat -> nat) (lens : list nat) (b : nat -> Q).
  Context (special : gst -> nat -> nat -> Z) (isQuery : bool) (cap : nat).
  Context (start : nat -> nat -> nat) (u : nat -> nat -> nat -> Q) (alphas : nat -> nat -> Q).
  Let D := length lens.
  Notation sweep := (dmr_sweep K T w lens b special isQuery start u alphas).
  Definition dmr_run (thin m : nat) (s : dstate) : res dstate :=
    fold_left (fun rs sw => do s <- rs; dmr_step K T w lens b special isQuery cap start u alphas thin s sw) (seq 0 m)
      (Ok (mkD (d_g s) (d_topic s) (d_vocab s) (d_buf s) 0)).
  Lemma dmr_sample_run count thin s :
    dmr_sample K T w lens b special isQuery cap start u alphas count thin s = dmr_run thin (Z.to_nat count) s.
  Proof. reflexivity. Qed.
  Lemma dmr_run_S thin m s : dmr_run thin (S m) s =
    (do s <- dmr_run thin m s; dmr_step K T w lens b special isQuery cap start u alphas thin s m).
  Proof. unfold dmr_run. rewrite seq_S, fold_left_app. reflexivity. Qed.

  Lemma dmr_run_samples (P : gst -> Prop) thin m s s' :
    (forall sw g g', P g -> sweep sw g = Ok g' -> P g') -> P (d_g s) ->
    dmr_run thin m s = Ok s' ->
    (thin <> 0 \/ m = 0) /\ (D = 0 \/ K = 0 \/ m / thin <= cap) /\ P (d_g s') /\
    exists l, length l = m / thin /\ d_taken s' = m / thin /\ Forall P l /\
      (forall d k, (d_topic s' d k == d_topic s d k + qsum (fun t => sample_topic K lens (alphas d) t d k) l)%Q) /\
      (forall k v, (d_vocab s' k v == d_vocab s k v + if isQuery then 0 else qsum (fun t => sample_vocab T b t k v) l)%Q) /\
      (isQuery = true -> d_vocab s' = d_vocab s) /\
      (forall i t, nth_error l i = Some t -> d_buf s' i = g_dk t) /\
      (forall i, m / thin <= i -> forall d k, d_buf s' i d k = d_buf s i d k).
  Proof.
    intros HP Hs. revert s'. induction m as [|m IH]; intros s' E.
    - unfold dmr_run in E. cbn [seq fold_left] in E. apply ok_inj in E. subst s'. cbn [d_g d_topic d_vocab d_buf d_taken].
      assert (H0 : 0 / thin = 0) by (destruct thin; [reflexivity|apply Nat.div_0_l; lia]). rewrite H0.
      split; [right; reflexivity|]. split; [lia|]. split; [exact Hs|]. exists [].
      split; [reflexivity|]. split; [reflexivity|]. split; [constructor|]. split; [intros; rewrite qsum_nil; ring|].
      split; [intros; destruct isQuery; rewrite ?qsum_nil; ring|]. split; [reflexivity|]. split; [intros [|i] t; discriminate|reflexivity].
    - rewrite dmr_run_S in E. apply bind_ok in E. destruct E as (s1 & E1 & E). unfold dmr_step in E. apply bind_ok in E. destruct E as (g & Eg & E).
      destruct (Nat.eqb_spec thin 0) as [->|Ht]; [discriminate|].
      destruct (IH _ E1) as (_ & Hc & P1 & l & L1 & L2 & L3 & L4 & L5 & L6 & L7 & L8).
      pose proof (HP _ _ _ P1 Eg) as Pg. replace (S m) with (m + 1) by lia.
      split; [left; exact Ht|].
      destruct (Nat.eqb_spec ((m + 1) mod thin) 0) as [Hm|Hm].
      + rewrite (div_S_hit m thin Ht Hm). unfold dmr_record in E.
        destruct ((cap <=? d_taken s1) && negb (length lens =? 0) && negb (K =? 0)) eqn:Ec; [discriminate|].
        apply ok_inj in E. subst s'. cbn [d_g d_topic d_vocab d_buf d_taken].
        split. { unfold D in *. rewrite L2 in Ec. lia. }
        split; [exact Pg|]. exists (l ++ [g]). rewrite app_length. cbn [length].
        split; [lia|]. split; [lia|]. split; [apply Forall_app; split; [exact L3|constructor; [exact Pg|constructor]]|].
        split; [|split; [|split; [|split]]].
        * intros d k. rewrite L4, qsum_app, qsum_cons, qsum_nil. unfold sample_topic. ring.
        * intros k v. specialize (L5 k v). destruct isQuery; [exact L5|].
          rewrite L5, qsum_app, qsum_cons, qsum_nil. unfold sample_vocab. ring.
        * intros Hq. rewrite Hq. apply L6. exact Hq.
        * intros i t Hi. rewrite L2. destruct (Nat.lt_ge_cases i (length l)) as [Hlt|Hge].
          -- rewrite nth_error_app1 in Hi by exact Hlt. rewrite <- (L7 i t Hi).
             destruct (Nat.eqb_spec i (m / thin)); [lia|]. reflexivity.
          -- rewrite nth_error_app2 in Hi by exact Hge.
             destruct (i - length l) as [|x] eqn:Ex; [|destruct x; discriminate].
             injection Hi as <-. destruct (Nat.eqb_spec i (m / thin)); [reflexivity|lia].
        * intros i Hi d k. rewrite L2. destruct (Nat.eqb_spec i (m / thin)); [lia|]. apply L8. lia.
      + rewrite (div_S_miss m thin Ht Hm). apply ok_inj in E. subst s'. cbn [d_g d_topic d_vocab d_buf d_taken].
        split; [exact Hc|]. split; [exact Pg|]. exists l. tauto.
  Qed.

  (** ** The counts *)
  Section Ok.
    Context (bkv : nat -> nat -> Z) (bk : nat -> Z).
    Let ok := counts_ok K w lens isQuery bkv bk.
    Context (HK : K <= 256) (Hspecial : forall s d v, (special s d v < Z.of_nat K)%Z).

    Lemma dmr_sweep_ok sw s s' : ok s -> sweep sw s = Ok s' -> ok s'.
    Proof.
      intros Hs E. unfold dmr_sweep in E. apply bind_ok in E. destruct E as ((o & t) & E & [= <-]). cbn [snd].
      assert (G : forall m, m <= D -> forall o t,
        fold_left (fun ros d => do os <- ros;
          do s' <- doc_sweep K T w lens (alphas d) b isQuery special start u sw d (fst os) (snd os);
          Ok (fst os + len_ lens d, s')) (seq 0 m) (Ok (0, s)) = Ok (o, t) -> o = offset lens m /\ ok t).
      { induction m as [|m IH]; intros Hm o' t' E'.
        - injection E' as <- <-. split; [reflexivity|exact Hs].
        - rewrite seq_S, fold_left_app in E'. cbn [fold_left Nat.add] in E'.
          apply bind_ok in E'. destruct E' as ((o1 & t1) & E1 & E').
          destruct (IH ltac:(lia) o1 t1 E1) as (-> & Ht1). cbn [fst snd] in E'.
          apply bind_ok in E'. destruct E' as (t2 & E2 & [= <- <-]).
          split; [rewrite offset_S; reflexivity|]. eapply doc_sweep_ok; [exact HK|exact Hspecial| |exact Ht1|exact E2]. unfold D in Hm. lia. }
      apply (G D ltac:(lia) o t E).
    Qed.

    Context (HP : forall d, d < D -> proper K T w lens bkv bk (alphas d) b).

    Lemma dmr_sweep_total sw s : (forall d i, (0 < u sw d i)%Q /\ (u sw d i <= 1)%Q) -> ok s ->
      exists s', sweep sw s = Ok s' /\ ok s'.
    Proof.
      intros Hu Hs. unfold dmr_sweep.
      assert (G : forall m, m <= D -> exists t,
        fold_left (fun ros d => do os <- ros;
          do s' <- doc_sweep K T w lens (alphas d) b isQuery special start u sw d (fst os) (snd os);
          Ok (fst os + len_ lens d, s')) (seq 0 m) (Ok (0, s)) = Ok (offset lens m, t) /\ ok t).
      { induction m as [|m IH]; intros Hm.
        - exists s. split; [reflexivity|exact Hs].
        - destruct (IH ltac:(lia)) as (t & E & Ht). rewrite seq_S, fold_left_app, E. cbn [fold_left Nat.add bind fst snd].
          unfold doc_sweep.
          destruct (fold_total ok (fun s ip => visit K T w (alphas m) b isQuery special m (offset lens m + snd ip) (u sw m (fst ip)) s)
                     (combine (seq 0 (len_ lens m)) (visits lens start sw m)) t Ht) as (t' & E' & Ht').
          { intros [i p] t0 Hin Ht0. cbn [fst snd].
            assert (Hp : p < nth m lens 0).
            { apply in_combine_r in Hin. unfold visits in Hin.
              destruct (len_ lens m) as [|l] eqn:El; [contradiction|]. unfold len_ in El. rewrite El.
              eapply positions_bound; [|exact Hin]. lia. }
            assert (Hm' : m < length lens) by (unfold D in Hm; lia).
            destruct (visit_total K T w lens isQuery bkv bk (alphas m) b special (HP m Hm') m p (u sw m i) t0 HK Hm' Hp Ht0) as (k & s' & Ev & _);
              try apply Hu.
            exists s'. split; [exact Ev|]. eapply visit_ok; eassumption. }
          rewrite E'. cbn [bind]. exists t'. split; [|exact Ht']. rewrite offset_S. reflexivity. }
      destruct (G D ltac:(lia)) as (t & E & Ht). unfold D in E. rewrite E. cbn [bind snd]. exists t. split; [reflexivity|exact Ht].
    Qed.

    (** A call ends well or writes after the end of the array of samples. *)
    Lemma dmr_run_total thin m s : (forall sw d i, (0 < u sw d i)%Q /\ (u sw d i <= 1)%Q) -> ok (d_g s) -> 0 < thin -> 0 < D -> 0 < K ->
      (m / thin <= cap -> exists s', dmr_run thin m s = Ok s' /\ ok (d_g s')) /\
      (cap < m / thin -> dmr_run thin m s = Raise MemoryOOB).
    Proof.
      intros Hu Hs Ht HD HK0. induction m as [|m (IH1 & IH2)].
      - rewrite Nat.div_0_l by lia. split; [|lia]. intros _. eexists. split; [reflexivity|exact Hs].
      - rewrite dmr_run_S. replace (S m) with (m + 1) by lia.
        assert (Hle : m / thin <= (m + 1) / thin) by (apply Nat.div_le_mono; lia).
        destruct (Nat.le_gt_cases (m / thin) cap) as [H|H].
        2:{ rewrite (IH2 H). split; [lia|reflexivity]. }
        destruct (IH1 H) as (s1 & E1 & O1). rewrite E1. cbn [bind]. unfold dmr_step.
        destruct (dmr_sweep_total m (d_g s1) (Hu m) O1) as (g & -> & Og). cbn [bind].
        destruct (Nat.eqb_spec thin 0); [lia|].
        assert (Htk : d_taken s1 = m / thin).
        { destruct (dmr_run_samples ok thin m s s1 (fun sw g g' => dmr_sweep_ok sw g g') Hs E1) as (_ & _ & _ & l & _ & L2 & _). exact L2. }
        destruct (Nat.eqb_spec ((m + 1) mod thin) 0) as [Hm|Hm].
        + rewrite (div_S_hit m thin) by assumption. unfold dmr_record. rewrite Htk.
          destruct (Nat.leb_spec cap (m / thin)) as [Hc|Hc].
          * assert (negb (length lens =? 0) = true) as -> by (unfold D in HD; lia). assert (negb (K =? 0) = true) as -> by lia. cbn [andb].
            split; [lia|reflexivity].
          * cbn [andb]. split; [|lia]. intros _. eexists. split; [reflexivity|exact Og].
        + rewrite (div_S_miss m thin) by assumption. split; [|lia]. intros _. eexists. split; [reflexivity|exact Og].
    Qed.
  End Ok.
End Sample.
