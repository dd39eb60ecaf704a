(** * Selecting users (C58, C111, C112). *)
From Coq Require Import Ascii String List ZArith Arith Bool Lia Permutation.
From Verif Require Import Base VecModel VecProofs EvalModel StrModel StrProps SelModel.
Import ListNotations.
Open Scope nat_scope.
Open Scope list_scope.

(** ** Updating lists *)
Lemma set_at_len {A} (l : list A) i a : length (set_at l i a) = length l.
Proof. revert i. induction l as [|x l IH]; intros [|i]; cbn; auto. Qed.

Lemma set_at_nth' {A} (l : list A) i a d k : i < length l -> nth k (set_at l i a) d = if k =? i then a else nth k l d.
Proof.
  revert i k. induction l as [|x l IH]; intros [|i] [|k] H; cbn in *; try lia; try reflexivity.
  apply IH. lia.
Qed.

Lemma sumZ_set l i a : i < length l -> sumZ (set_at l i a) = (sumZ l - nth i l 0 + a)%Z.
Proof.
  revert i. induction l as [|x l IH]; intros [|i] H; cbn [set_at sumZ nth length] in *; try lia.
  rewrite IH by lia. lia.
Qed.

Lemma sumZ_nonneg' l : Forall (fun x => 0 <= x)%Z l -> (0 <= sumZ l)%Z.
Proof. induction 1; cbn [sumZ]; lia. Qed.

Lemma remove_len (g : nat) l : NoDup l -> In g l -> S (length (remove Nat.eq_dec g l)) = length l.
Proof.
  induction 1 as [|x l N ND IH]; intros H; [destruct H|]. cbn [remove].
  destruct (Nat.eq_dec g x) as [->|D].
  - cbn [length]. f_equal. rewrite notin_remove by assumption. reflexivity.
  - cbn [length]. f_equal. apply IH. destruct H; [congruence|assumption].
Qed.

Lemma remove_NoDup (g : nat) l : NoDup l -> NoDup (remove Nat.eq_dec g l).
Proof.
  induction 1 as [|x l N ND IH]; [constructor|]. cbn [remove]. destruct (Nat.eq_dec g x); [exact IH|].
  constructor; [|exact IH]. intros H. apply in_remove in H. tauto.
Qed.

(** ** The invariant of the allotment *)
Record inv (tots : list Z) (st : state) : Prop := mkInv {
  i_len1 : length (counts st) = length tots;
  i_len2 : length (contribs st) = length tots;
  i_split : forall k, (nth k (counts st) 0 + nth k (contribs st) 0 = nth k tots 0)%Z;
  i_pos1 : forall k, (0 <= nth k (counts st) 0)%Z;
  i_pos2 : forall k, (0 <= nth k (contribs st) 0)%Z;
  i_sum : assigned st = sumZ (contribs st);
  i_total : (sumZ (counts st) + sumZ (contribs st) = sumZ tots)%Z;
  i_nodup : NoDup (cands st);
  i_range : forall g, In g (cands st) -> g < length tots;
  i_open : forall k, (0 < nth k (counts st) 0)%Z -> In k (cands st)
}.

Definition measure (st : state) : Z := (sumZ (counts st) + Z.of_nat (length (cands st)))%Z.

Lemma inv_take tots gt g st : (1 <= gt)%Z -> inv tots st -> In g (cands st) ->
  inv tots (take gt g st) /\ (measure (take gt g st) < measure st)%Z /\
  (assigned st <= assigned (take gt g st) <= assigned st + gt)%Z /\
  length (cands (take gt g st)) <= length (cands st).
Proof.
  intros Hg [L1 L2 SP P1 P2 SM TT ND RG OP] Hin. pose proof (RG g Hin) as R.
  assert (R1 : g < length (counts st)) by lia. assert (R2 : g < length (contribs st)) by lia.
  pose proof (P1 g) as Hg1. pose proof (P2 g) as Hg2. pose proof (remove_len g (cands st) ND Hin) as RL.
  unfold take. set (have := nth g (counts st) 0%Z) in *.
  set (x := if (have <? gt)%Z then have else gt).
  set (have' := if (have <? gt)%Z then 0%Z else (have - gt)%Z).
  assert (E : (have' + x = have)%Z) by (unfold have', x; destruct (have <? gt)%Z; lia).
  assert (X : (0 <= x <= gt)%Z) by (unfold x; destruct (Z.ltb_spec have gt); lia).
  assert (Y : (0 <= have')%Z) by (unfold have'; destruct (Z.ltb_spec have gt); lia).
  assert (W : (have' = 0 \/ x = gt)%Z) by (unfold have', x; destruct (have <? gt)%Z; auto).
  split; [|split; [|split]].
  - constructor; cbn [counts contribs cands assigned].
    + rewrite set_at_len. exact L1.
    + rewrite set_at_len. exact L2.
    + intros k. rewrite !set_at_nth' by assumption. pose proof (SP k) as S1. destruct (Nat.eqb_spec k g) as [->|]; [|exact S1].
      fold have in S1. lia.
    + intros k. rewrite set_at_nth' by assumption. destruct (k =? g); [exact Y|apply P1].
    + intros k. rewrite set_at_nth' by assumption. destruct (k =? g); [lia|apply P2].
    + rewrite sumZ_set by assumption. lia.
    + rewrite !sumZ_set by assumption. fold have. lia.
    + destruct (have' =? 0)%Z; [apply remove_NoDup; exact ND|exact ND].
    + intros k. destruct (have' =? 0)%Z; [|apply RG]. intros H. apply in_remove in H. apply RG, H.
    + intros k. rewrite set_at_nth' by assumption. destruct (Nat.eqb_spec k g) as [->|D].
      * intros H. destruct (Z.eqb_spec have' 0); [lia|exact Hin].
      * intros H. apply OP in H. destruct (have' =? 0)%Z; [|exact H]. apply in_in_remove; assumption.
  - unfold measure. cbn [counts cands]. rewrite sumZ_set by assumption. fold have.
    destruct (Z.eqb_spec have' 0); lia.
  - cbn [assigned]. lia.
  - cbn [cands]. destruct (have' =? 0)%Z; lia.
Qed.

Lemma inv_for tots gt : (1 <= gt)%Z -> forall n i st, inv tots st ->
  inv tots (for_groups n gt i st) /\ (measure (for_groups n gt i st) <= measure st)%Z /\
  (assigned st <= assigned (for_groups n gt i st) <= assigned st + Z.of_nat n * gt)%Z.
Proof.
  intros Hg. induction n as [|n IH]; intros i st I; cbn [for_groups]; [repeat split; try lia; apply I|].
  destruct (nth_error (cands st) i) as [g|] eqn:E; [|repeat split; try lia; apply I].
  destruct (inv_take tots gt g st Hg I (nth_error_In _ _ E)) as (I' & M & A & _).
  destruct (IH (S i) (take gt g st) I') as (I'' & M' & A'). split; [exact I''|]. lia.
Qed.

(** The loop over the list has enough passes: more change nothing. *)
Lemma for_groups_enough tots gt : (1 <= gt)%Z -> forall n m i st, inv tots st -> length (cands st) <= n + i -> n <= m ->
  for_groups m gt i st = for_groups n gt i st.
Proof.
  intros Hg. induction n as [|n IH]; intros m i st I L M.
  - destruct m as [|m]; [reflexivity|]. cbn [for_groups]. destruct (nth_error (cands st) i) eqn:E; [|reflexivity].
    assert (i < length (cands st)) by (apply nth_error_Some; congruence). lia.
  - destruct m as [|m]; [lia|]. cbn [for_groups]. destruct (nth_error (cands st) i) as [g|] eqn:E; [|reflexivity].
    destruct (inv_take tots gt g st Hg I (nth_error_In _ _ E)) as (I' & _ & _ & LL). apply IH; [exact I'|lia|lia].
Qed.

Lemma for_progress tots gt n st : (1 <= gt)%Z -> inv tots st -> cands st <> [] ->
  (measure (for_groups (S n) gt 0 st) < measure st)%Z.
Proof.
  intros Hg I N. cbn [for_groups]. destruct (cands st) as [|g l] eqn:E; [congruence|]. cbn [nth_error].
  destruct (inv_take tots gt g st Hg I) as (I' & M & _); [rewrite E; left; reflexivity|].
  destruct (inv_for tots gt Hg n 1 _ I') as (_ & M' & _). lia.
Qed.

Lemma measure_nonneg tots st : inv tots st -> (0 <= measure st)%Z.
Proof.
  intros I. unfold measure. assert (0 <= sumZ (counts st))%Z; [|lia]. apply sumZ_nonneg'. apply Forall_forall.
  intros x Hx. apply In_nth with (d := 0%Z) in Hx as (k & _ & <-). apply (i_pos1 tots st I).
Qed.

Lemma sum_zero l : (forall k, nth k l 0 = 0)%Z -> sumZ l = 0%Z.
Proof.
  induction l as [|x l IH]; intros H; [reflexivity|]. cbn [sumZ]. rewrite IH.
  - specialize (H 0). cbn in H. lia.
  - intros k. exact (H (S k)).
Qed.

Lemma while_spec tots target : forall fuel st, inv tots st -> (measure st < Z.of_nat fuel)%Z ->
  (assigned st <= target + Z.of_nat (length tots))%Z ->
  (sumZ tots < target -> while_short fuel target st = Some (Raise ZeroDivisionError))%Z /\
  (target <= sumZ tots -> exists r, while_short fuel target st = Some (Ok r) /\ length r = length tots /\
     (forall k, 0 <= nth k r 0 <= nth k tots 0) /\ target <= sumZ r <= target + Z.of_nat (length tots))%Z.
Proof.
  induction fuel as [|f IH]; intros st I M B.
  { pose proof (measure_nonneg tots st I). lia. }
  cbn [while_short]. destruct (Z.ltb_spec (assigned st) target) as [A|A].
  - destruct (cands st) as [|g l] eqn:EC.
    + cbn [length]. assert (Z0 : sumZ (counts st) = 0%Z).
      { apply sum_zero. intros k. pose proof (i_pos1 tots st I k). destruct (Z.eq_dec (nth k (counts st) 0%Z) 0) as [->|D]; [reflexivity|].
        exfalso. pose proof (i_open tots st I k ltac:(lia)) as X. rewrite EC in X. destruct X. }
      pose proof (i_total tots st I). pose proof (i_sum tots st I). split; [reflexivity|]. intros; lia.
    + cbn [length]. set (n := S (length l)).
      set (gt := (1 + (target - assigned st) / Z.of_nat n)%Z).
      assert (Hd : (0 <= (target - assigned st) / Z.of_nat n)%Z) by (apply Z.div_pos; unfold n; lia).
      assert (Hm : (Z.of_nat n * ((target - assigned st) / Z.of_nat n) <= target - assigned st)%Z) by (apply Z.mul_div_le; unfold n; lia).
      assert (Hn : n <= length tots).
      { assert (Hl : length (cands st) <= length (seq 0 (length tots))).
        { apply NoDup_incl_length; [apply (i_nodup tots st I)|]. intros k Hk. apply in_seq. pose proof (i_range tots st I k Hk). lia. }
        rewrite EC, seq_length in Hl. unfold n. cbn [length] in Hl. exact Hl. }
      assert (Hgt : (1 <= gt)%Z) by (unfold gt; lia).
      destruct (inv_for tots gt Hgt n 0 st I) as (I' & M' & A').
      assert (P : (measure (for_groups n gt 0 st) < measure st)%Z).
      { apply (for_progress tots); [exact Hgt|exact I|]. rewrite EC. discriminate. }
      assert (Z.of_nat n * gt <= target - assigned st + Z.of_nat n)%Z by (unfold gt; nia).
      apply IH; [exact I'|lia|lia].
  - pose proof (i_total tots st I) as TT. pose proof (i_sum tots st I) as SM.
    assert (0 <= sumZ (counts st))%Z.
    { apply sumZ_nonneg'. apply Forall_forall. intros x Hx. apply In_nth with (d := 0%Z) in Hx as (k & _ & <-). apply (i_pos1 tots st I). }
    split; [lia|]. intros _. exists (contribs st). split; [reflexivity|]. split; [apply (i_len2 tots st I)|]. split; [|lia].
    intros k. pose proof (i_split tots st I k). pose proof (i_pos1 tots st I k). pose proof (i_pos2 tots st I k). lia.
Qed.

Lemma fold_min l : forall m, let r := fold_left (fun m t => if (t <? m)%Z then t else m) l m in
  (r <= m)%Z /\ forall x, In x l -> (r <= x)%Z.
Proof.
  induction l as [|a l IH]; intros m; cbn [fold_left]; [split; [lia|intros x []]|].
  destruct (Z.ltb_spec a m); [destruct (IH a) as [A B]|destruct (IH m) as [A B]]; split; try lia;
    intros x [->|Hx]; try lia; apply B; exact Hx.
Qed.

Lemma sumZ_ge_n b l : (forall x, In x l -> b <= x)%Z -> (Z.of_nat (length l) * b <= sumZ l)%Z.
Proof.
  induction l as [|a l IH]; intros H; cbn [length sumZ]; [lia|].
  pose proof (H a (or_introl eq_refl)). specialize (IH (fun x Hx => H x (or_intror Hx))). lia.
Qed.
Lemma sumZ_const {A} b (l : list A) : sumZ (map (fun _ => b) l) = (Z.of_nat (length l) * b)%Z.
Proof. induction l as [|a l IH]; cbn [length map sumZ]; [reflexivity|]. rewrite IH. lia. Qed.
Lemma nth_const {A} b (l : list A) k : nth k (map (fun _ => b) l) 0%Z = if k <? length l then b else 0%Z.
Proof.
  revert k. induction l as [|a l IH]; intros [|k]; cbn [map nth length]; try reflexivity. rewrite IH.
  destruct (Nat.ltb_spec k (length l)), (Nat.ltb_spec (S k) (S (length l))); try lia; reflexivity.
Qed.

(** The allotments: never more than a group has, and between target - groups and
    target + groups in total, whenever there are that many tweets; if there are
    not, the division by the number of remaining groups fails.  The loop ends
    within as many rounds as there are tweets and groups. *)
Theorem C58_allotments : forall fuel tots target,
  tots <> [] -> (0 <= target)%Z -> Forall (fun t => 0 <= t)%Z tots ->
  (sumZ tots + Z.of_nat (length tots) < Z.of_nat fuel)%Z ->
  (sumZ tots < target -> select_group_contribs fuel tots target = Some (Raise ZeroDivisionError))%Z /\
  (target <= sumZ tots -> exists r, select_group_contribs fuel tots target = Some (Ok r) /\ length r = length tots /\
     (forall k, 0 <= nth k r 0 <= nth k tots 0) /\
     target - Z.of_nat (length tots) < sumZ r <= target + Z.of_nat (length tots))%Z.
Proof.
  intros fuel tots target Hne Ht HF Hf. unfold select_group_contribs.
  set (mc := fold_left _ tots _). assert (Hmc : forall x, In x tots -> (mc <= x)%Z) by apply (fold_min tots).
  destruct (length tots) as [|n'] eqn:EL; [destruct tots; [congruence|discriminate EL]|].
  set (n := S n') in *. pose proof (sumZ_ge_n mc tots Hmc) as Hs. rewrite EL in Hs.
  assert (Hm : (Z.of_nat n * (target / Z.of_nat n) <= target)%Z) by (apply Z.mul_div_le; unfold n; lia).
  assert (Hm2 : (target < Z.of_nat n * (target / Z.of_nat n) + Z.of_nat n)%Z).
  { pose proof (Z.mul_succ_div_gt target (Z.of_nat n) ltac:(unfold n; lia)). lia. }
  assert (Hd : (0 <= target / Z.of_nat n)%Z) by (apply Z.div_pos; unfold n; lia).
  destruct (Z.ltb_spec (target / Z.of_nat n) mc) as [C|C].
  - split; [nia|]. intros _. eexists. split; [reflexivity|]. split; [rewrite map_length; exact EL|]. split.
    + intros k. rewrite nth_const. destruct (Nat.ltb_spec k (length tots)) as [K|K].
      * pose proof (Hmc (nth k tots 0%Z) (nth_In tots 0%Z K)). lia.
      * rewrite nth_overflow by lia. lia.
    + rewrite sumZ_const, EL. fold n. lia.
  - assert (I : inv tots (mkSt tots (map (fun _ => 0%Z) tots) (seq 0 n) 0)).
    { assert (N0 : forall k, (0 <= nth k tots 0)%Z).
      { intros k. destruct (nth_in_or_default k tots 0%Z) as [H|H]; [|rewrite H; lia]. rewrite Forall_forall in HF. apply HF, H. }
      constructor; cbn [counts contribs cands assigned].
      - reflexivity.
      - apply map_length.
      - intros k. rewrite nth_const. destruct (k <? length tots); lia.
      - exact N0.
      - intros k. rewrite nth_const. destruct (k <? length tots); lia.
      - rewrite sumZ_const. lia.
      - rewrite sumZ_const. lia.
      - apply seq_NoDup.
      - intros g Hg. apply in_seq in Hg. lia.
      - intros k Hk. apply in_seq. split; [lia|]. destruct (Nat.lt_ge_cases k n) as [G|G]; [lia|].
        rewrite nth_overflow in Hk by lia. lia. }
    destruct (while_spec tots target fuel _ I) as [W1 W2].
    + unfold measure. cbn [counts cands]. rewrite seq_length. lia.
    + cbn [assigned]. lia.
    + split; [exact W1|]. intros H. destruct (W2 H) as (r & E & L & B & S). exists r. split; [exact E|].
      split; [lia|]. split; [exact B|]. rewrite <- EL in *. unfold n in *. lia.
Qed.

(** The target itself may be missed although there are enough tweets, and with
    too few tweets nothing is returned. *)
Theorem C58_target_met_refuted : exists tots target r,
  (target <= sumZ tots)%Z /\ (forall fuel, select_group_contribs fuel tots target = Some (Ok r)) /\ (sumZ r < target)%Z.
Proof. exists [10; 10]%Z, 5%Z, [2; 2]%Z. split; [discriminate|]. split; reflexivity. Qed.
Theorem C58_takes_everything_refuted : exists tots target, (0 < sumZ tots < target)%Z /\
  forall fuel, (sumZ tots + Z.of_nat (length tots) < Z.of_nat fuel)%Z ->
    select_group_contribs fuel tots target = Some (Raise ZeroDivisionError).
Proof.
  exists [1; 2]%Z, 4%Z. split; [cbn; lia|]. intros fuel Hf.
  apply (C58_allotments fuel [1; 2]%Z 4%Z); [discriminate|lia|repeat constructor; lia|exact Hf|cbn; lia].
Qed.

Example C58_case : select_group_contribs 100 [3; 50; 20]%Z 40%Z = Some (Ok [3; 18; 20])%Z.
Proof. reflexivity. Qed.

(** ** C111: the users of a group *)
Definition tweets (us : users) : Z := sumZ (map snd us).

Lemma take_users_spec c : forall us acc, Forall (fun u => 0 <= snd u)%Z us ->
  exists k, take_users c acc us = firstn k us /\ k <= length us /\
    (c <= acc + tweets us -> c <= acc + tweets (firstn k us))%Z /\
    (forall j, j < k -> (acc + tweets (firstn j us) < c)%Z) /\
    (acc + tweets us < c -> k = length us)%Z.
Proof.
  unfold tweets. induction us as [|u us IH]; intros acc HF.
  - exists 0. cbn. repeat split; try lia.
  - inversion HF; subst. cbn [take_users]. destruct (Z.ltb_spec acc c) as [A|A].
    + destruct (IH (acc + snd u)%Z H2) as (k & E & L & R & B & Al). exists (S k).
      cbn [firstn length map sumZ]. rewrite E. repeat split; try lia.
      intros [|j] Hj; cbn [firstn map sumZ]; [lia|]. specialize (B j ltac:(lia)). lia.
    + exists 0. cbn [firstn length map sumZ].
      assert (0 <= sumZ (map snd us))%Z. { apply sumZ_nonneg'. apply Forall_map. exact H2. }
      repeat split; try lia.
Qed.

(** The users taken are the last ones of the group; together they have at least
    the allotment if the group has; one user fewer would not do; a group with
    less is taken whole. *)
Theorem C111_enough_and_not_more : forall us c, Forall (fun u => 0 <= snd u)%Z us ->
  exists rest, Permutation us (rest ++ select_in_group us c) /\ us = rest ++ rev (select_in_group us c) /\
    (c <= tweets us -> c <= tweets (select_in_group us c))%Z /\
    (forall s u, select_in_group us c = s ++ [u] -> tweets s < c)%Z /\
    (tweets us < c -> rest = [])%Z.
Proof.
  intros us c HF. unfold select_in_group.
  destruct (take_users_spec c (rev us) 0%Z) as (k & E & L & R & B & Al).
  { apply Forall_forall. intros x Hx. rewrite <- in_rev in Hx. rewrite Forall_forall in HF. apply HF, Hx. }
  assert (TR : forall l, tweets (rev l) = tweets l).
  { intros l. unfold tweets. apply sumZ_perm. apply Permutation_map. symmetry. apply Permutation_rev. }
  rewrite TR, rev_length in *. exists (rev (skipn k (rev us))).
  assert (D : us = rev (skipn k (rev us)) ++ rev (firstn k (rev us))).
  { rewrite <- rev_app_distr, firstn_skipn, rev_involutive. reflexivity. }
  rewrite E. split; [|split; [exact D|split; [exact R|split]]].
  - rewrite D at 1. apply Permutation_app_head. symmetry. apply Permutation_rev.
  - intros s u ES. assert (K : k = S (length s)).
    { apply (f_equal (@length _)) in ES. rewrite firstn_length, rev_length, app_length in ES. cbn in ES. lia. }
    assert (F : s = firstn (length s) (rev us)).
    { apply (f_equal (firstn (length s))) in ES. rewrite firstn_firstn, firstn_app, Nat.sub_diag, firstn_all, app_nil_r in ES.
      rewrite Nat.min_l in ES by lia. symmetry. exact ES. }
    rewrite F. apply B. lia.
  - intros H. rewrite (Al H), <- (rev_length us), skipn_all. reflexivity.
Qed.

(** With the allotments of C58, all users chosen have together more tweets than
    the target less the number of groups. *)
Definition chosen_tweets (l : groups) (r : list Z) : Z :=
  sumZ (map (fun '((_, us), c) => tweets (select_in_group us c)) (combine l r)).

Theorem C111_target_reached : forall fuel (l : groups) target r,
  l <> [] -> (0 <= target <= sumZ (group_totals l))%Z ->
  Forall (fun '(_, us) => Forall (fun u => 0 <= snd u)%Z us) l ->
  (sumZ (group_totals l) + Z.of_nat (length l) < Z.of_nat fuel)%Z ->
  select_group_contribs fuel (group_totals l) target = Some (Ok r) ->
  (target - Z.of_nat (length l) < chosen_tweets l r)%Z /\
  select_users l r = flat_map (fun '((_, us), c) => map fst (select_in_group us c)) (combine l r) /\
  forall u, In u (select_users l r) -> exists g us, In (g, us) l /\ In u (map fst us).
Proof.
  intros fuel l target r Hne Ht HF Hf E.
  assert (LT : length (group_totals l) = length l) by apply map_length.
  destruct (C58_allotments fuel (group_totals l) target) as [_ H]; try lia.
  { destruct l; [congruence|discriminate]. }
  { unfold group_totals. apply Forall_map. eapply Forall_impl; [|exact HF]. intros [g us] H. cbn. apply sumZ_nonneg'.
    apply Forall_map. exact H. }
  destruct (H ltac:(lia)) as (r' & E' & L & B & S). rewrite E in E'. injection E' as <-. rewrite LT in *. clear H.
  split; [|split; [reflexivity|]].
  - enough (sumZ r <= chosen_tweets l r)%Z by lia. clear - L B HF.
    unfold chosen_tweets. revert r L B. induction HF as [|[g us] l Hu HF IH]; intros [|c r] L B; cbn in L; try lia; [reflexivity|].
    cbn [combine map sumZ]. specialize (IH r ltac:(lia) (fun k => B (S k))).
    pose proof (B 0) as B0. cbn in B0. destruct (C111_enough_and_not_more us c Hu) as (_ & _ & _ & R & _).
    unfold tweets at 1 in R. lia.
  - intros u Hu. unfold select_users in Hu. apply in_flat_map in Hu as ([[g us] c] & Hin & Hu).
    exists g, us. apply in_combine_l in Hin. split; [exact Hin|]. apply in_map_iff in Hu as ([u' n] & <- & Hu). cbn [fst].
    apply in_map_iff. exists (u', n). split; [reflexivity|].
    unfold select_in_group in Hu. rewrite in_rev. revert Hu. generalize 0%Z. induction (rev us) as [|v vs IH]; intros acc Hu; [destruct Hu|].
    cbn [take_users] in Hu. destruct (acc <? c)%Z; [|destruct Hu]. destruct Hu as [->|Hu]; [left; reflexivity|right; eapply IH; exact Hu].
Qed.

Example C111_case : map fst (select_in_group [(T "a", 5%Z); (T "b", 7%Z); (T "c", 2%Z)] 8) = [T "c"; T "b"].
Proof. reflexivity. Qed.

(** ** C112: reading the counts *)
Lemma lstrip_spaces pre s : forallb is_space pre = true -> lstrip (pre ++ s) = lstrip s.
Proof. induction pre as [|c pre IH]; intros H; [reflexivity|]. cbn [forallb app lstrip] in *. apply andb_prop in H as [-> H]. apply IH, H. Qed.
Lemma lstrip_id c s : is_space c = false -> lstrip (c :: s) = c :: s.
Proof. intros H. cbn [lstrip]. rewrite H. reflexivity. Qed.

Lemma lstrip_all pre : forallb is_space pre = true -> lstrip pre = [].
Proof. intros H. rewrite <- (app_nil_r pre). rewrite lstrip_spaces by exact H. reflexivity. Qed.

Theorem C112_strip : forall pre c a d post,
  forallb is_space pre = true -> forallb is_space post = true -> is_space c = false -> is_space d = false ->
  strip (pre ++ (c :: a ++ [d]) ++ post) = c :: a ++ [d] /\ strip (pre ++ [c] ++ post) = [c] /\ strip pre = [].
Proof.
  intros pre c a d post Hpre Hpost Hc Hd.
  assert (Hrp : forallb is_space (rev post) = true).
  { rewrite forallb_forall in *. intros x Hx. apply Hpost. rewrite in_rev. exact Hx. }
  unfold strip. rewrite !(lstrip_spaces pre) by assumption. cbn [app]. rewrite !(lstrip_id c) by assumption. split; [|split].
  - change (c :: (a ++ [d]) ++ post) with ((c :: a ++ [d]) ++ post). rewrite rev_app_distr, lstrip_spaces by exact Hrp.
    change (c :: a ++ [d]) with ((c :: a) ++ [d]) at 1. rewrite rev_app_distr. cbn [rev app]. rewrite lstrip_id by exact Hd.
    change (d :: rev a ++ [c]) with (rev [d] ++ rev (c :: a)). rewrite <- rev_app_distr, rev_involutive. reflexivity.
  - change (c :: post) with ([c] ++ post). rewrite rev_app_distr, lstrip_spaces by exact Hrp. cbn [rev app]. rewrite lstrip_id by exact Hc. reflexivity.
  - rewrite (lstrip_all pre) by exact Hpre. reflexivity.
Qed.

Lemma has_dot_In s : has_dot s = true <-> In "."%char s.
Proof.
  unfold has_dot. rewrite existsb_exists. split.
  - intros (c & H & E). destruct (ascii_dec c "."); [subst; exact H|discriminate].
  - intros H. exists "."%char. split; [exact H|reflexivity].
Qed.

Lemma split_nonempty c s : split_on c s <> [].
Proof. destruct s as [|x s]; cbn; [discriminate|]. destruct (ascii_dec x c); [discriminate|]. destruct (split_on c s); discriminate. Qed.

Lemma split_last c a b : ~ In c b -> split_on c (a ++ c :: b) = split_on c a ++ [b].
Proof.
  intros H. induction a as [|x a IH]; cbn [app split_on].
  - destruct (ascii_dec c c); [|congruence]. rewrite split_plain by exact H. reflexivity.
  - rewrite IH. destruct (ascii_dec x c); [reflexivity|]. destruct (split_on c a) eqn:E; [exfalso; exact (split_nonempty c a E)|]. reflexivity.
Qed.

Lemma join_split s : join_dots (split_on "."%char s) = s.
Proof.
  induction s as [|x s IH]; [reflexivity|]. cbn [split_on]. pose proof (split_nonempty "."%char s) as N.
  destruct (split_on "."%char s) as [|w ws]; [congruence|]. destruct (ascii_dec x ".") as [->|].
  - cbn [join_dots app T list_ascii_of_string]. rewrite <- IH. reflexivity.
  - rewrite <- IH. destruct ws; reflexivity.
Qed.

(** The user's name is the file name without its last extension. *)
Theorem C112_user_names : forall a ext, ~ In "."%char ext ->
  user_name (a ++ T "." ++ ext) = strip a /\ user_name ext = strip ext.
Proof.
  intros a ext H. unfold user_name. split.
  - assert (D : has_dot (a ++ T "." ++ ext) = true) by (apply has_dot_In, in_or_app; right; left; reflexivity).
    rewrite D. change (T "." ++ ext) with ("."%char :: ext). rewrite split_last by exact H.
    rewrite removelast_last, join_split. reflexivity.
  - destruct (has_dot ext) eqn:D; [apply has_dot_In in D; contradiction|reflexivity].
Qed.

(** What a line says. *)
Definition tab : ascii := ascii_of_nat 9.
Definition says (to_int : list ascii -> res Z) (line : list ascii) (e : list ascii * list ascii * Z) : Prop :=
  let '(g, u, n) := e in
  exists cnt file, line = cnt ++ tab :: g ++ tab :: file /\ ~ In tab cnt /\ ~ In tab g /\ ~ In tab file /\
    to_int cnt = Ok n /\ u = user_name file.

Definition total (es : list (list ascii * list ascii * Z)) (g u : list ascii) : Z :=
  sumZ (map (fun '(g', u', n) => if teqb g g' && teqb u u' then n else 0%Z) es).
Definition mentioned (es : list (list ascii * list ascii * Z)) (g u : list ascii) : Prop := exists n, In (g, u, n) es.

Definition describes (es : list (list ascii * list ascii * Z)) (l : groups) : Prop :=
  NoDup (map fst l) /\
  (forall g, In g (map fst l) <-> exists u, mentioned es g u) /\
  (forall g us, In (g, us) l -> NoDup (map fst us) /\ forall u c, In (u, c) us <-> mentioned es g u /\ c = total es g u).

Lemma teqb_refl' a : teqb a a = true.
Proof. apply teqb_eq. reflexivity. Qed.
Lemma teqb_neq a b : a <> b -> teqb a b = false.
Proof. intros H. destruct (teqb a b) eqn:E; [apply teqb_eq in E; contradiction|reflexivity]. Qed.
Lemma text_dec (a b : list ascii) : a = b \/ a <> b.
Proof. destruct (list_eq_dec ascii_dec a b); auto. Qed.

Lemma add_user_spec user n us : NoDup (map fst us) ->
  NoDup (map fst (add_user user n us)) /\
  (forall u, In u (map fst (add_user user n us)) <-> u = user \/ In u (map fst us)) /\
  (forall u c, u <> user -> (In (u, c) (add_user user n us) <-> In (u, c) us)) /\
  (forall c, In (user, c) (add_user user n us) <->
     (exists c0, In (user, c0) us /\ c = c0 + n)%Z \/ (~ In user (map fst us) /\ c = n)).
Proof.
  induction us as [|[v c0] us IH]; intros ND; cbn [add_user map fst].
  - split; [repeat constructor; intros []|]. split; [cbn; intuition congruence|]. split.
    + intros u c H. cbn. split; [intros [[= <- <-]|[]]; congruence|intros []].
    + intros c. cbn. split; [intros [[= <-]|[]]; auto|]. intros [(c0 & [] & _)|[_ ->]]. left. reflexivity.
  - inversion ND; subst. destruct (teqb user v) eqn:E.
    + apply teqb_eq in E. subst v. cbn [map fst]. split; [exact ND|]. split; [intros u; cbn; intuition congruence|]. split.
      * intros u c H. cbn. split; intros [[= <- <-]|H']; try congruence; right; exact H'.
      * intros c. cbn. split.
        -- intros [[= <-]|H]; [left; exists c0; auto|]. exfalso. apply H1. apply in_map_iff. exists (user, c). auto.
        -- intros [(c1 & [[= <-]|H] & ->)|[H _]]; [left; reflexivity| |exfalso; apply H; left; reflexivity].
           exfalso. apply H1. apply in_map_iff. exists (user, c1). auto.
    + assert (D : user <> v) by (intros ->; rewrite teqb_refl' in E; discriminate).
      destruct (IH H2) as (N & K & O & U). cbn [map fst]. split; [|split; [|split]].
      * constructor; [|exact N]. rewrite K. intros [->|H]; [congruence|contradiction].
      * intros u. cbn [In]. rewrite K. intuition congruence.
      * intros u c H. cbn [In]. rewrite (O u c H). reflexivity.
      * intros c. cbn [In]. rewrite U. split.
        -- intros [[= <- <-]|[(c1 & H & ->)|[H ->]]]; [congruence|left; exists c1; auto|right; split; [|reflexivity]].
           intros [->|H']; [congruence|contradiction].
        -- intros [(c1 & [[= <- <-]|H] & ->)|[H ->]]; [congruence|right; left; exists c1; auto|right; right; split; [|reflexivity]].
           intros H'. apply H. right. exact H'.
Qed.

Lemma total_snoc es g u e : total (es ++ [e]) g u =
  (total es g u + (let '(g', u', n) := e in if teqb g g' && teqb u u' then n else 0))%Z.
Proof. unfold total. rewrite map_app, sumZ_app. destruct e as [[g' u'] n]. cbn [map sumZ]. lia. Qed.

Lemma mentioned_snoc es g u g' u' n : mentioned (es ++ [(g', u', n)]) g u <-> mentioned es g u \/ (g = g' /\ u = u').
Proof.
  unfold mentioned. split.
  - intros (m & H). apply in_app_or in H as [H|[[= <- <- <-]|[]]]; [left; exists m; exact H|right; auto].
  - intros [(m & H)|[-> ->]]; [exists m; apply in_or_app; auto|exists n; apply in_or_app; right; left; reflexivity].
Qed.

Lemma total_unmentioned es g u : ~ mentioned es g u -> total es g u = 0%Z.
Proof.
  induction es as [|[[g' u'] n] es IH] using rev_ind; intros H; [reflexivity|]. rewrite mentioned_snoc in H. rewrite total_snoc.
  rewrite IH by tauto. destruct (text_dec g g') as [->|D]; [|rewrite (teqb_neq g g') by exact D; reflexivity].
  destruct (text_dec u u') as [->|D]; [exfalso; tauto|]. rewrite (teqb_neq u u') by exact D. rewrite andb_false_r. reflexivity.
Qed.

Lemma describes_users es g us user n : NoDup (map fst us) ->
  (forall u c, In (u, c) us <-> mentioned es g u /\ c = total es g u) ->
  NoDup (map fst (add_user user n us)) /\
  forall u c, In (u, c) (add_user user n us) <-> mentioned (es ++ [(g, user, n)]) g u /\ c = total (es ++ [(g, user, n)]) g u.
Proof.
  intros ND H. destruct (add_user_spec user n us ND) as (N & K & O & U). split; [exact N|].
  intros u c. rewrite mentioned_snoc, total_snoc, teqb_refl'. cbn [andb].
  destruct (text_dec u user) as [->|D].
  - rewrite U, teqb_refl'. split.
    + intros [(c0 & H0 & ->)|[H0 ->]].
      * apply H in H0 as [M ->]. split; [auto|reflexivity].
      * split; [auto|]. rewrite total_unmentioned; [lia|]. intros M. apply H0. apply in_map_iff. exists (user, total es g user).
        split; [reflexivity|]. apply H. auto.
    + intros [_ ->]. destruct (in_dec (list_eq_dec ascii_dec) user (map fst us)) as [I|I].
      * left. apply in_map_iff in I as ([u' c0] & E & I). cbn in E. subst u'. pose proof I as I2. apply H in I2 as [_ ->]. eexists. split; [exact I|reflexivity].
      * right. split; [exact I|]. rewrite total_unmentioned; [lia|]. intros M. apply I. apply in_map_iff. exists (user, total es g user).
        split; [reflexivity|]. apply H. auto.
  - rewrite (O u c D), (teqb_neq u user D), H, Z.add_0_r. intuition congruence.
Qed.

Lemma describes_other es g us g' user n : g <> g' ->
  (NoDup (map fst us) /\ forall u c, In (u, c) us <-> mentioned es g u /\ c = total es g u) ->
  NoDup (map fst us) /\ forall u c, In (u, c) us <-> mentioned (es ++ [(g', user, n)]) g u /\ c = total (es ++ [(g', user, n)]) g u.
Proof.
  intros D [N H]. split; [exact N|]. intros u c. rewrite mentioned_snoc, total_snoc, (teqb_neq g g' D), H. cbn [andb].
  rewrite Z.add_0_r. intuition congruence.
Qed.

Lemma add_count_keys g user n l g1 : In g1 (map fst (add_count g user n l)) <-> g1 = g \/ In g1 (map fst l).
Proof.
  induction l as [|[h us] l IH]; cbn [add_count map fst]; [cbn; intuition congruence|].
  destruct (teqb g h) eqn:E; cbn [map fst In].
  - apply teqb_eq in E. subst h. intuition congruence.
  - rewrite IH. intuition congruence.
Qed.

Lemma add_count_spec es g user n l : describes es l -> describes (es ++ [(g, user, n)]) (add_count g user n l).
Proof.
  intros (ND & K & G). split; [|split].
  - clear K G. induction l as [|[h us] l IH]; cbn [add_count map fst]; [repeat constructor; intros []|].
    inversion ND; subst. destruct (teqb g h) eqn:E; cbn [map fst]; [exact ND|]. constructor; [|apply IH; assumption].
    rewrite add_count_keys. intros [->|H]; [rewrite teqb_refl' in E; discriminate|contradiction].
  - intros g1. rewrite add_count_keys, K. split.
    + intros [->|(u & M)]; [exists user|exists u]; rewrite mentioned_snoc; auto.
    + intros (u & M). apply mentioned_snoc in M as [M|[-> _]]; [right; exists u; exact M|left; reflexivity].
  - assert (NM : ~ In g (map fst l) -> forall u, ~ mentioned es g u).
    { intros H u M. apply H. apply K. exists u. exact M. }
    revert ND G NM. clear K. induction l as [|[h us] l IH]; intros ND G NM g1 us1; cbn [add_count].
    + intros [[= <- <-]|[]]. apply (describes_users es g [] user n); [constructor|]. intros u c. split; [intros []|].
      intros [M _]. exfalso. exact (NM (fun X => X) u M).
    + inversion ND; subst. destruct (teqb g h) eqn:E.
      * apply teqb_eq in E. subst h. intros [[= <- <-]|Hin].
        -- destruct (G g us (or_introl eq_refl)) as [A B]. apply describes_users; assumption.
        -- apply describes_other; [|apply G; right; exact Hin]. intros ->. apply H1. apply in_map_iff. exists (g, us1). auto.
      * assert (D : g <> h) by (intros ->; rewrite teqb_refl' in E; discriminate). intros [[= <- <-]|Hin].
        -- apply describes_other; [congruence|]. apply G. left. reflexivity.
        -- apply IH; try assumption.
           ++ intros g2 us2 H. apply G. right. exact H.
           ++ intros H. apply NM. cbn. intros [->|X]; [congruence|contradiction].
Qed.

Lemma read_line_says to_int l line l' : read_line to_int l line = Ok l' ->
  exists g u n, says to_int line (g, u, n) /\ l' = add_count g u n l.
Proof.
  unfold read_line. fold tab. intros H.
  destruct (split_on tab line) as [|c [|g [|f [|]]]] eqn:E; try discriminate.
  destruct (to_int c) as [n|] eqn:EI; [|discriminate]. injection H as <-.
  exists g, (user_name f), n. split; [|reflexivity]. exists c, f.
  assert (J : forall s a b d, split_on tab s = [a; b; d] -> s = a ++ tab :: b ++ tab :: d /\ ~ In tab a /\ ~ In tab b /\ ~ In tab d).
  { assert (P : forall s w ws, split_on tab s = w :: ws -> ~ In tab w).
    { induction s as [|x s IH]; cbn [split_on]; intros w ws Hs; [injection Hs as <- _; intros []|].
      destruct (ascii_dec x tab); [injection Hs as <- _; intros []|]. destruct (split_on tab s) as [|w' ws'] eqn:Es; injection Hs as <- _.
      - intros [|[]]; congruence.
      - intros [X|X]; [congruence|]. exact (IH w' ws' eq_refl X). }
    assert (Q1 : forall s a, split_on tab s = [a] -> s = a).
    { induction s as [|x s IH]; cbn [split_on]; intros a Hs; [congruence|].
      destruct (ascii_dec x tab); [injection Hs as _ Hs; exfalso; exact (split_nonempty tab s Hs)|].
      destruct (split_on tab s) as [|w ws] eqn:Es; [exfalso; exact (split_nonempty tab s Es)|]. injection Hs as <- ->. f_equal. apply IH. reflexivity. }
    assert (Q2 : forall s a b ws, split_on tab s = a :: b :: ws -> exists s', s = a ++ tab :: s' /\ split_on tab s' = b :: ws).
    { induction s as [|x s IH]; cbn [split_on]; intros a b ws Hs; [discriminate|].
      destruct (ascii_dec x tab) as [->|]; [injection Hs as <- Hs; exists s; split; [reflexivity|exact Hs]|].
      destruct (split_on tab s) as [|w ws'] eqn:Es; [discriminate|]. injection Hs as <- ->.
      destruct (IH w b ws eq_refl) as (s' & -> & H'). exists s'. split; [reflexivity|exact H']. }
    intros s a b d Hs. pose proof (P _ _ _ Hs) as Pa. destruct (Q2 _ _ _ _ Hs) as (s1 & -> & H1).
    pose proof (P _ _ _ H1) as Pb. destruct (Q2 _ _ _ _ H1) as (s2 & -> & H2). pose proof (P _ _ _ H2) as Pd.
    apply Q1 in H2. subst s2. auto. }
  destruct (J line c g f E) as (-> & A & B & C). repeat split; assumption.
Qed.

(** The result: one entry per group mentioned; in it, the users whose total over
    all lines lies strictly between the limits, with that total. *)
Theorem C112_counts_are_totals : forall to_int lines lo hi l, read_counts to_int lines lo hi = Ok l ->
  exists es, Forall2 (says to_int) lines es /\
    NoDup (map fst l) /\
    (forall g, In g (map fst l) <-> exists u, mentioned es g u) /\
    (forall g us, In (g, us) l -> NoDup (map fst us) /\
       forall u c, In (u, c) us <-> mentioned es g u /\ c = total es g u /\ (lo < c < hi)%Z).
Proof.
  intros to_int lines lo hi l H. unfold read_counts in H. apply bind_ok in H as (l0 & H & R). injection R as <-.
  assert (G : forall lines es0 l1 l2, describes es0 l1 -> foldM (read_line to_int) l1 lines = Ok l2 ->
     exists es, Forall2 (says to_int) lines es /\ describes (es0 ++ es) l2).
  { clear. induction lines as [|x lines IH]; intros es0 l1 l2 D H; cbn [EvalModel.foldM] in H.
    - injection H as <-. exists []. rewrite app_nil_r. split; [constructor|exact D].
    - apply bind_ok in H as (l' & H1 & H). apply read_line_says in H1 as (g & u & n & S & ->).
      apply add_count_spec with (g := g) (user := u) (n := n) in D. destruct (IH _ _ _ D H) as (es & F & D').
      exists ((g, u, n) :: es). split; [constructor; assumption|]. rewrite <- app_assoc in D'. exact D'. }
  destruct (G lines [] [] l0) as (es & F & (ND & K & U)); [|exact H|].
  { split; [constructor|]. split; [|intros g us []]. intros g. cbn. split; [intros []|intros (u & n & [])]. }
  cbn [app] in *. exists es. split; [exact F|].
  assert (MF : map fst (map (fun '(g, us) => (g, filter (keep_user lo hi) us)) l0) = map fst l0).
  { rewrite map_map. apply map_ext. intros [g us]. reflexivity. }
  unfold users in *. rewrite MF. split; [exact ND|]. split; [exact K|]. intros g us Hin. apply in_map_iff in Hin as ([g' us0] & [= -> <-] & Hin).
  destruct (U g us0 Hin) as [N E]. split.
  - clear E. induction us0 as [|[v c] us0 IH]; [constructor|]. inversion N; subst. cbn [filter].
    assert (IH' : NoDup (map fst (filter (keep_user lo hi) us0))).
    { clear - H3. induction us0 as [|[w d] us0 IH]; [constructor|]. inversion H3; subst. cbn [filter]. destruct (keep_user _ _ _); [|apply IH; assumption].
      cbn [map fst]. constructor; [|apply IH; assumption]. intros X. apply H1. apply in_map_iff in X as (p & E & X). apply filter_In in X as [X _].
      apply in_map_iff. exists p. auto. }
    destruct (keep_user lo hi (v, c)); [|exact IH']. cbn [map fst]. constructor; [|exact IH'].
    intros X. apply H2. apply in_map_iff in X as (p & E & X). apply filter_In in X as [X _]. apply in_map_iff. exists p. auto.
  - intros u c. rewrite filter_In, E. unfold keep_user. cbn [snd]. rewrite andb_true_iff, Z.ltb_lt, Z.ltb_lt. intuition congruence.
Qed.

(** Lines that do not have three columns, or whose count is not a number, are
    errors. *)
Theorem C112_bad_lines : forall to_int l line, (forall e, ~ says to_int line e) -> exists e, read_line to_int l line = Raise e.
Proof.
  intros to_int l line H. destruct (read_line to_int l line) as [l'|e] eqn:E; [|exists e; reflexivity].
  apply read_line_says in E as (g & u & n & S & _). exfalso. exact (H _ S).
Qed.

Example C112_case :
  let to_int s := if teqb s (T "12") then Ok 12%Z else Ok 7%Z in
  read_counts to_int [T "12" ++ tab :: T "sport" ++ tab :: T "bob.smith.txt"; T "7" ++ tab :: T "news" ++ tab :: T "eve";
                      T "7" ++ tab :: T "sport" ++ tab :: T "bob.smith.csv"] 8 100 =
    Ok [(T "sport", [(T "bob.smith", 19%Z)]); (T "news", [])].
Proof. reflexivity. Qed.

Print Assumptions C58_allotments.
Print Assumptions C58_target_met_refuted.
Print Assumptions C58_takes_everything_refuted.
Print Assumptions C111_enough_and_not_more.
Print Assumptions C111_target_reached.
Print Assumptions C112_strip.
Print Assumptions C112_user_names.
Print Assumptions C112_counts_are_totals.
Print Assumptions C112_bad_lines.
