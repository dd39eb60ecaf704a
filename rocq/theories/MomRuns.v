(** * Sweeps of the membership sampler and the query that averages them. *)
From Coq Require Import List ZArith QArith Qreals Reals Arith Bool Lra Lia.
From Verif Require Import Base RealModel RealProofs MixModel MixProofs VbModel VbProofs BoundSpec BoundProofs GammaProofs BoundMore StationSpec StationProofs.
From Verif Require Import MixBoundSpec MixBoundProofs MomModel MomSpec MomProofs GibbsModel.
Import ListNotations.
Open Scope nat_scope.

Definition unit_draw (r : Q) : Prop := (0 < r)%Q /\ (r <= 1)%Q.

Section Runs.
  Context (a : R) (K T : nat) (phi : nat -> vec) (W : list vec) (alpha : vec).
  Notation D := (length W).
  Notation A_ := (assignments K D).
  Hypothesis HK : 0 < K.
  Hypothesis Pa : forall k, k < K -> (1 < alpha k)%R.

  Definition rows_of (A : list nat) (M : members) : Prop := forall d k, d < D -> k < K -> M d k = is_in d k A.
  Notation moves := (mmoves a K T phi W alpha).
  (** The draws of a sweep. *)
  Fixpoint in_turn (vs : list nat) (u : nat -> Q) (A A' : list nat) : Prop :=
    match vs with [] => A = A' | d :: vs => exists B, In B A_ /\ moves d A (u d) B /\ in_turn vs u B A' end.

  Lemma one_hot_in d k A : one_hot (nth d A 0) k = is_in d k A.
  Proof using. unfold one_hot, is_in. rewrite Nat.eqb_sym. reflexivity. Qed.
  Lemma stands_rows A M : rows_of A M -> stands K W alpha A (M, prior_num W alpha M).
  Proof using. intros H. split; [|reflexivity]. intros d k Hd Hk. rewrite one_hot_in. apply H; assumption. Qed.

  Notation go u := (fun rs d => do st <- rs; mom_visit a K T phi W d (Q2R (u d)) st).
  Lemma first_fold M0 (u : nat -> Q) : (forall d k, d < D -> k < K -> (0 <= M0 d k)%R) -> (forall d, d < D -> unit_draw (u d)) ->
    forall i, i <= D -> exists st A, fold_left (go u) (seq 0 i) (Ok (M0, prior_num W alpha M0)) = Ok st /\ In A A_ /\ holds K W alpha M0 (0, i) A st.
  Proof.
    intros PM U. induction i as [|i IH]; intros Hi.
    - exists (M0, prior_num W alpha M0), (repeat 0 D). split; [reflexivity|]. split.
      + apply in_assignments. split; [apply repeat_length|]. apply Forall_forall. intros x Hx. apply repeat_spec in Hx. lia.
      + split; [|reflexivity]. intros d k _ _. unfold cur. reflexivity.
    - destruct (IH ltac:(lia)) as (st & A & E & HA & H). rewrite seq_S, fold_left_app, E. cbn [fold_left Nat.add bind]. destruct st as [M pn].
      destruct (Q2R_unit (u i)) as [R0 R1]; [apply U; lia|apply U; lia|].
      destruct (visit_draws a K T phi W alpha M0 HK (0, i) A (Q2R (u i)) M pn (Rgt_not_eq _ _ (rest_sum K W alpha M0 HK Pa PM (0, i) A)) ltac:(cbn; lia) HA H) as (p & pn' & EP & X). cbv zeta in X. cbn [fst snd] in X.
      destruct X as [E1 X]. assert (L : multinomial_one K p (Q2R (u i)) < K).
      { apply (draw_iff K p (Q2R (u i)) 0); [exact HK|intros j Hj; rewrite EP by exact Hj; left; apply mq_pos, HK| |exact R0|exact R1].
        rewrite (vsum_ext K p (mq a K T phi W alpha M0 (0, i) A)) by exact EP. apply mq_sum, HK. }
      exists (set_row M i (one_hot (multinomial_one K p (Q2R (u i)))), pn'), (put i (multinomial_one K p (Q2R (u i))) A).
      split; [exact E1|]. split; [apply put_in; assumption|exact (X L)].
  Qed.
  Lemma first_sweep M0 (u : nat -> Q) : (forall d k, d < D -> k < K -> (0 <= M0 d k)%R) -> (forall d, d < D -> unit_draw (u d)) ->
    exists M A, sample_rows a K T phi W alpha (fun d => Q2R (u d)) M0 = Ok M /\ In A A_ /\ rows_of A M.
  Proof.
    intros PM U. destruct (first_fold M0 u PM U D (le_n _)) as ([M pn] & A & E & HA & H & _). exists M, A. split; [|split; [exact HA|]].
    - change (Ok M) with (do st <- Ok (M, pn); Ok (fst st)). rewrite <- E. reflexivity.
    - intros d k Hd Hk. cbn [fst] in H. rewrite H by assumption. unfold cur. cbn [fst snd Nat.eqb]. rewrite (proj2 (Nat.leb_gt _ _)) by exact Hd. apply one_hot_in.
  Qed.

  Lemma walk_fold (u : nat -> Q) vs : forall A st, (forall d, In d vs -> d < D /\ unit_draw (u d)) -> In A A_ -> stands K W alpha A st ->
    exists st' A', fold_left (go u) vs (Ok st) = Ok st' /\ In A' A_ /\ in_turn vs u A A' /\ stands K W alpha A' st'.
  Proof.
    induction vs as [|d vs IH]; intros A st H HA S.
    - exists st, A. split; [reflexivity|]. split; [exact HA|]. split; [reflexivity|exact S].
    - destruct (H d (or_introl eq_refl)) as [Hd [U0 U1]]. destruct (Q2R_unit (u d) U0 U1) as [R0 R1].
      pose proof (fun st S => visit_gives a K T phi W alpha (fun _ _ => 0%R) HK d A (Q2R (u d)) st (Rgt_not_eq _ _ (rest_sum K W alpha (fun _ _ => 0%R) HK Pa ltac:(intros; lra) (1, d) A)) Hd HA S R0 R1) as V. cbv zeta in V.
      destruct (V st S) as (Hk & st1 & E1 & S1). set (B := put d (multinomial_one K (kq a K T phi W alpha (fun _ _ => 0%R) d A) (Q2R (u d))) A) in *.
      assert (HB : In B A_) by (apply put_in; assumption).
      destruct (IH B st1 ltac:(intros; apply H; right; assumption) HB S1) as (st' & A' & E & HA' & WK & S').
      exists st', A'. cbn [fold_left bind]. rewrite E1. split; [exact E|]. split; [exact HA'|]. split; [|exact S'].
      exists B. split; [exact HB|]. split; [|exact WK]. intros st2 S2. destruct (V st2 S2) as (_ & st3 & E3 & S3). exists st3. split; assumption.
  Qed.
  Lemma next_sweep (u : nat -> Q) A M : (forall d, d < D -> unit_draw (u d)) -> In A A_ -> rows_of A M ->
    exists M' A', sample_rows a K T phi W alpha (fun d => Q2R (u d)) M = Ok M' /\ In A' A_ /\ in_turn (seq 0 D) u A A' /\ rows_of A' M'.
  Proof.
    intros U HA RW. destruct (walk_fold u (seq 0 D) A (M, prior_num W alpha M)) as ([M' pn] & A' & E & HA' & WK & S & _).
    - intros d Hd. apply in_seq in Hd. split; [lia|apply U; lia].
    - exact HA.
    - apply stands_rows, RW.
    - exists M', A'. split; [change (Ok M') with (do st <- Ok (M', pn); Ok (fst st)); rewrite <- E; reflexivity|]. split; [exact HA'|]. split; [exact WK|].
      intros d k Hd Hk. rewrite <- one_hot_in. exact (S d k Hd Hk).
  Qed.

  Definition sampled (burnIn thinning : Z) (i : nat) : bool := (0 <? i) && (burnIn <? Z.of_nat i)%Z && (Z.of_nat i mod thinning =? 0)%Z.
  Lemma sampled_is burnIn thinning i : (0 < thinning)%Z -> is_sampling_iteration (Z.of_nat i) burnIn thinning = Ok (sampled burnIn thinning i).
  Proof using.
    clear. intros H. unfold is_sampling_iteration, sampled. replace (0 <? Z.of_nat i)%Z with (0 <? i) by (destruct (Z.ltb_spec 0 (Z.of_nat i)), (Nat.ltb_spec 0 i); try reflexivity; lia).
    destruct (0 <? i); [|reflexivity]. destruct (burnIn <? Z.of_nat i)%Z; [|reflexivity]. cbn [negb andb]. rewrite (proj2 (Z.eqb_neq thinning 0)) by lia. reflexivity.
  Qed.

  Context (burnIn thinning : Z) (u : nat -> nat -> Q).
  Hypothesis Ht : (0 < thinning)%Z.
  Hypothesis U : forall i d, d < D -> unit_draw (u i d).
  Notation qrows := (query_rows a K T phi W alpha burnIn thinning (fun i d => Q2R (u i d))).
  Lemma query_runs n : forall itr M A acc count, In A A_ -> rows_of A M ->
    exists acc' z, qrows n itr M acc count = Ok (acc', count + length (filter (sampled burnIn thinning) (seq itr n))) /\
      z 0 = A /\ (forall i, i < n -> In (z (S i)) A_ /\ in_turn (seq 0 D) (u (itr + i)) (z i) (z (S i))) /\
      forall d k, d < D -> k < K -> acc' d k = (acc d k + rsum (map (fun i => is_in d k (z (S i - itr)%nat)) (filter (sampled burnIn thinning) (seq itr n))))%R.
  Proof.
    induction n as [|n IH]; intros itr M A acc count HA RW.
    - exists acc, (fun _ => A). cbn [query_rows seq filter length map rsum]. split; [do 2 f_equal; lia|]. split; [reflexivity|]. split; [intros; lia|]. intros. ring.
    - cbn [query_rows]. destruct (next_sweep (u itr) A M ltac:(intros; apply U; assumption) HA RW) as (M' & A' & E & HA' & WK & RW'). rewrite E. cbn [bind].
      rewrite sampled_is by exact Ht. cbn [bind seq filter].
      assert (X : forall acc count, exists acc' z, qrows n (S itr) M' acc count = Ok (acc', count + length (filter (sampled burnIn thinning) (seq (S itr) n))) /\
        z 0 = A /\ z 1 = A' /\ (forall i, i < S n -> In (z (S i)) A_ /\ in_turn (seq 0 D) (u (itr + i)) (z i) (z (S i))) /\
        forall d k, d < D -> k < K -> acc' d k = (acc d k + rsum (map (fun i => is_in d k (z (S i - itr)%nat)) (filter (sampled burnIn thinning) (seq (S itr) n))))%R).
      { intros acc1 count1. destruct (IH (S itr) M' A' acc1 count1 HA' RW') as (acc' & z & E' & Z0 & ZW & EA).
        exists acc', (fun i => match i with O => A | S i => z i end). split; [exact E'|]. split; [reflexivity|]. split; [exact Z0|]. split.
        - intros [|i] Hi; [rewrite Z0, Nat.add_0_r; split; assumption|]. destruct (ZW i ltac:(lia)) as [Z1 Z2]. split; [exact Z1|].
          replace (itr + S i) with (S itr + i) by lia. exact Z2.
        - intros d k Hd Hk. rewrite (EA d k Hd Hk). f_equal. apply rsum_ext. intros i Hi. apply filter_In in Hi as [Hi _]. apply in_seq in Hi.
          replace (S i - itr) with (S (S i - S itr)) by lia. reflexivity. }
      destruct (sampled burnIn thinning itr).
      + destruct (X (fun d k => acc d k + M' d k)%R (S count)) as (acc' & z & E' & Z0 & Z1 & ZW & EA). exists acc', z. rewrite E'. cbn [length].
        split; [do 2 f_equal; lia|]. split; [exact Z0|]. split; [exact ZW|]. intros d k Hd Hk. rewrite (EA d k Hd Hk). cbn [map rsum].
        replace (S itr - itr) with 1 by lia. rewrite Z1, (RW' d k Hd Hk). ring.
      + destruct (X acc count) as (acc' & z & E' & Z0 & Z1 & ZW & EA). exists acc', z. rewrite E'. split; [reflexivity|]. split; [exact Z0|]. split; [exact ZW|exact EA].
  Qed.

  Lemma query_all iterations M0 : (forall d k, d < D -> k < K -> (0 <= M0 d k)%R) ->
    let l := filter (sampled burnIn thinning) (seq 0 (Z.to_nat iterations)) in
    exists r z, mom_query_rows a K T phi W alpha (iterations, burnIn, thinning) (fun i d => Q2R (u i d)) M0 = Ok r /\
      In (z 0) A_ /\ (forall i, 0 < i < Z.to_nat iterations -> In (z i) A_ /\ in_turn (seq 0 D) (u i) (z (i - 1)) (z i)) /\
      match r with
      | None => l = []
      | Some rows => l <> [] /\ forall d k, d < D -> k < K -> rows d k = average (is_in d k) (map z l)
      end.
  Proof.
    intros PM. cbv zeta. unfold mom_query_rows. destruct (Z.to_nat iterations) as [|n].
    - cbn [query_rows bind seq filter]. exists None, (fun _ => repeat 0 D). split; [reflexivity|]. split; [|split; [intros; lia|reflexivity]].
      apply in_assignments. split; [apply repeat_length|]. apply Forall_forall. intros x Hx. apply repeat_spec in Hx. lia.
    - cbn [query_rows]. destruct (first_sweep M0 (u 0) PM ltac:(intros; apply U; assumption)) as (M & A & E & HA & RW). rewrite E. cbn [bind].
      rewrite sampled_is by exact Ht. cbn [bind seq filter]. change (sampled burnIn thinning 0) with false. cbn iota.
      destruct (query_runs n 1 M A (fun _ _ => 0%R) 0 HA RW) as (acc & z & E' & Z0 & ZW & EA). rewrite E'. cbn [bind].
      set (l := filter (sampled burnIn thinning) (seq 1 n)) in *. destruct l as [|i l'] eqn:EL.
      + exists None, z. split; [reflexivity|]. rewrite Z0. split; [exact HA|]. split; [|reflexivity]. intros i Hi.
        destruct (ZW (i - 1) ltac:(lia)) as [Z1 Z2]. replace (S (i - 1)) with i in * by lia. replace (1 + (i - 1)) with i in * by lia. split; assumption.
      + exists (Some (fun d k => (acc d k / INR (0 + length (i :: l')))%R)), z. split; [reflexivity|]. rewrite Z0. split; [exact HA|]. split.
        * intros j Hj. destruct (ZW (j - 1) ltac:(lia)) as [Z1 Z2]. replace (S (j - 1)) with j in * by lia. replace (1 + (j - 1)) with j in * by lia. split; assumption.
        * split; [discriminate|]. intros d k Hd Hk. rewrite (EA d k Hd Hk). unfold average. rewrite map_length, map_map. cbn [Nat.add]. rewrite Rplus_0_l. f_equal.
          apply rsum_ext. intros j _. rewrite Nat.sub_succ, Nat.sub_0_r. reflexivity.
  Qed.
End Runs.

(** Between two samples there is a round. *)
Fixpoint gaps (from : nat) (l : list nat) : list nat := match l with [] => [] | i :: l => i - from :: gaps i l end.
Lemma gaps_length l : forall from, length (gaps from l) = length l.
Proof. induction l as [|i l IH]; intros from; [reflexivity|]. cbn [gaps length]. rewrite IH. reflexivity. Qed.
Lemma gaps_filter f n : forall i from, from < i -> Forall (fun g => 0 < g) (gaps from (filter f (seq i n))).
Proof.
  induction n as [|n IH]; intros i from H; [constructor|]. cbn [seq filter]. destruct (f i).
  - cbn [gaps]. constructor; [lia|]. apply IH. lia.
  - apply IH. lia.
Qed.
Lemma gaps_sampled b t n : Forall (fun g => 0 < g) (gaps 0 (filter (sampled b t) (seq 0 n))).
Proof. destruct n as [|n]; [constructor|]. cbn [seq filter]. change (sampled b t 0) with false. cbn iota. apply gaps_filter. lia. Qed.
