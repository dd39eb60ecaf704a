(** * Proofs about the ranking metrics. *)
From Coq Require Import List ZArith QArith Arith Bool Lia Lqa Permutation.
From Verif Require Import Base EvalModel EvalSpec.
Import ListNotations.
Open Scope nat_scope.

(** ** Rationals *)
Lemma qnat_0 : qnat 0 = 0%Q. Proof. reflexivity. Qed.
Lemma qnat_S n : (qnat (S n) == 1 + qnat n)%Q.
Proof. unfold qnat. rewrite Nat2Z.inj_succ. unfold Z.succ. rewrite inject_Z_plus. ring. Qed.
Lemma qnat_plus a b : (qnat (a + b) == qnat a + qnat b)%Q.
Proof. unfold qnat. rewrite Nat2Z.inj_add, inject_Z_plus. reflexivity. Qed.
Lemma qnat_le a b : a <= b -> (qnat a <= qnat b)%Q.
Proof. intros. unfold qnat. rewrite <- Zle_Qle. lia. Qed.
Lemma qnat_le_inv a b : (qnat a <= qnat b)%Q -> a <= b.
Proof. intros H. unfold qnat in H. rewrite <- Zle_Qle in H. lia. Qed.
Lemma qnat_pos a : 0 < a -> (0 < qnat a)%Q.
Proof. intros. unfold qnat. change 0%Q with (inject_Z 0). rewrite <- Zlt_Qlt. lia. Qed.
Lemma qnat_nonneg a : (0 <= qnat a)%Q.
Proof. apply (qnat_le 0 a). lia. Qed.
Lemma qnat_inj a b : (qnat a == qnat b)%Q -> a = b.
Proof. intros H. apply Nat.le_antisymm; apply qnat_le_inv; rewrite H; apply Qle_refl. Qed.

Lemma qsum_cons {A} (f : A -> Q) a l : qsum f (a :: l) = (f a + qsum f l)%Q. Proof. reflexivity. Qed.
Lemma qsum_nil {A} (f : A -> Q) : qsum f [] = 0%Q. Proof. reflexivity. Qed.
Lemma qsum_app {A} (f : A -> Q) l r : (qsum f (l ++ r) == qsum f l + qsum f r)%Q.
Proof. induction l; [rewrite qsum_nil; cbn [app]; ring|]. cbn [app]. rewrite !qsum_cons, IHl. ring. Qed.
Lemma qsum_ext {A} (f g : A -> Q) l : (forall a, In a l -> f a == g a)%Q -> (qsum f l == qsum g l)%Q.
Proof.
  induction l; intros H; [reflexivity|]. rewrite !qsum_cons, IHl, (H a) by (intros; auto using in_eq, in_cons; apply H; right; auto).
  reflexivity.
Qed.
Lemma qsum_le {A} (f g : A -> Q) l : (forall a, In a l -> f a <= g a)%Q -> (qsum f l <= qsum g l)%Q.
Proof.
  induction l; intros H; [apply Qle_refl|]. rewrite !qsum_cons. apply Qplus_le_compat.
  - apply H. left. auto.
  - apply IHl. intros. apply H. right. auto.
Qed.
Lemma qsum_const {A} (c : Q) (l : list A) : (qsum (fun _ => c) l == c * qnat (length l))%Q.
Proof. induction l; [rewrite qsum_nil; cbn [length]; rewrite qnat_0; ring|]. cbn [length]. rewrite qsum_cons, IHl, qnat_S. ring. Qed.
Lemma qsum_plus {A} (f g : A -> Q) l : (qsum (fun a => f a + g a) l == qsum f l + qsum g l)%Q.
Proof. induction l; [rewrite !qsum_nil; ring|]. rewrite !qsum_cons, IHl. ring. Qed.
Lemma qsum_scale {A} (c : Q) (f : A -> Q) l : (qsum (fun a => c * f a) l == c * qsum f l)%Q.
Proof. induction l; [rewrite !qsum_nil; ring|]. rewrite !qsum_cons, IHl. ring. Qed.
Lemma qsum_perm {A} (f : A -> Q) l r : Permutation l r -> (qsum f l == qsum f r)%Q.
Proof.
  induction 1; rewrite ?qsum_cons; [reflexivity|rewrite IHPermutation; reflexivity| |].
  - rewrite ?qsum_cons. ring.
  - rewrite IHPermutation1. exact IHPermutation2.
Qed.

Lemma qdiv_ok a b : 0 < b -> qdiv a b = Ok (qnat a / qnat b)%Q.
Proof. intros. unfold qdiv. replace (b =? 0) with false by (symmetry; apply Nat.eqb_neq; lia). reflexivity. Qed.

Lemma sum_res_ok {A} (f : A -> res Q) l s : sum_res f l = Ok s ->
  exists g, (forall a, In a l -> exists x, f a = Ok x) /\
    (forall a x, f a = Ok x -> g a = x) /\ (s == qsum g l)%Q.
Proof.
  intros H. exists (fun a => match f a with Ok x => x | Raise _ => 0%Q end).
  revert s H; induction l as [|a l IH]; intros s H; cbn in H.
  - injection H as <-. split; [intros a []|]. split; [intros a x ->; reflexivity|reflexivity].
  - apply bind_ok in H as (x & Hx & H). apply bind_ok in H as (s' & Hs & [= <-]).
    destruct (IH s' Hs) as (H1 & H2 & H3). split; [|split].
    + intros b [<-|Hb]; eauto.
    + exact H2.
    + rewrite qsum_cons, Hx, H3. reflexivity.
Qed.

Lemma sum_res_total {A} (f : A -> res Q) l :
  (forall a, In a l -> exists x, f a = Ok x) -> exists s, sum_res f l = Ok s.
Proof.
  induction l as [|a l IH]; intros H; cbn; [eauto|].
  destruct (H a (or_introl eq_refl)) as (x & ->). cbn.
  destruct IH as (s & ->); [intros; apply H; right; auto|]. cbn. eauto.
Qed.

(** ** Sets *)
Lemma common_le_l a b : common a b <= length (pyset a).
Proof. apply filter_len_le. Qed.

Lemma in_pyset x l : In x (pyset l) <-> In x l.
Proof. apply nodup_In. Qed.

Lemma common_In x a b : In x (filter (fun x => existsb (Nat.eqb x) (pyset b)) (pyset a)) <-> In x a /\ In x b.
Proof.
  rewrite filter_In, in_pyset, existsb_exists. split.
  - intros (H & y & Hy & E). apply Nat.eqb_eq in E as <-. rewrite in_pyset in Hy. auto.
  - intros (H & H'). split; auto. exists x. rewrite in_pyset, Nat.eqb_refl. auto.
Qed.

Lemma hits_In k recv expt x : In x (filter (fun x => if in_dec Nat.eq_dec x (firstn k recv) then true else false) (nodup Nat.eq_dec expt))
  <-> In x (firstn k recv) /\ In x expt.
Proof. rewrite filter_In, nodup_In. destruct (in_dec _ _ _); intuition congruence. Qed.

Lemma common_hits k recv expt : common (firstn k recv) expt = hits k recv expt.
Proof.
  unfold common, hits. apply Permutation_length, NoDup_Permutation.
  - apply NoDup_filter, NoDup_nodup.
  - apply NoDup_filter, NoDup_nodup.
  - intros x. rewrite common_In, hits_In. tauto.
Qed.

Lemma hits_le_expt k recv expt : hits k recv expt <= length (nodup Nat.eq_dec expt).
Proof. apply filter_len_le. Qed.

Lemma hits_mono k k' recv expt : k <= k' -> hits k recv expt <= hits k' recv expt.
Proof.
  intros H. unfold hits. apply NoDup_incl_length; [apply NoDup_filter, NoDup_nodup|].
  intros x Hx. apply hits_In in Hx as [H1 H2]. apply hits_In. split; auto.
  replace k' with (k + (k' - k)) by lia. rewrite <- (firstn_skipn k recv) in H1 |- *.
  rewrite firstn_app, firstn_length, firstn_all2 in H1 |- *; try (rewrite firstn_length; lia).
  - apply in_app_iff in H1 as [H1|H1]; apply in_app_iff; auto.
    right. destruct (le_lt_dec k (length recv)).
    + rewrite Nat.min_l, Nat.sub_diag in H1 by lia. destruct H1.
    + rewrite skipn_all2, firstn_nil in H1 by lia. destruct H1.
Qed.

Lemma hits_le_k k recv expt : hits k recv expt <= k.
Proof.
  transitivity (length (firstn k recv)); [|rewrite firstn_length; lia].
  apply NoDup_incl_length; [apply NoDup_filter, NoDup_nodup|].
  intros x Hx. apply hits_In in Hx. tauto.
Qed.

(** ** Average precision *)
Lemma find_pos_spec e l : In e l -> nth_error l (find_pos e l) = Some e.
Proof.
  induction l as [|a l IH]; intros H; [destruct H|]. cbn. destruct (Nat.eqb_spec a e) as [->|]; [reflexivity|].
  cbn. apply IH. destruct H; [congruence|assumption].
Qed.

Lemma pyset_nonempty l : l <> [] -> 0 < length (pyset l).
Proof.
  destruct l as [|a l]; intros H; [congruence|].
  assert (Hin : In a (pyset (a :: l))) by (apply in_pyset; left; auto).
  destruct (pyset (a :: l)); [destruct Hin|cbn; lia].
Qed.

Lemma prec_at_ok recv expt e : recv <> [] ->
  exists x, prec_at recv expt e = Ok x /\ (0 <= x <= 1)%Q.
Proof.
  intros H. unfold prec_at. set (s := firstn (find_pos e recv + 1) recv).
  assert (Hs : 0 < length (pyset s)).
  { apply pyset_nonempty. unfold s. destruct recv; [congruence|]. rewrite Nat.add_1_r. cbn. discriminate. }
  rewrite qdiv_ok by assumption. eexists. split; [reflexivity|].
  pose proof (qnat_pos _ Hs). pose proof (qnat_nonneg (common s expt)).
  pose proof (qnat_le _ _ (common_le_l s expt)). split.
  - apply Qle_shift_div_l; lra.
  - apply Qle_shift_div_r; lra.
Qed.

Lemma prec_at_empty expt e : prec_at [] expt e = Raise ZeroDivisionError.
Proof. reflexivity. Qed.

Lemma prec_at_perfect recv expt e : perfect expt recv -> In e expt ->
  exists x, prec_at recv expt e = Ok x /\ (x == 1)%Q.
Proof.
  intros [H1 H2] He. unfold prec_at. set (s := firstn (find_pos e recv + 1) recv).
  assert (Hpos := find_pos_spec e recv (H1 e He)).
  assert (Hs : 0 < length (pyset s)).
  { apply pyset_nonempty. unfold s. destruct recv; [destruct (H1 e He)|]. rewrite Nat.add_1_r. cbn. discriminate. }
  rewrite qdiv_ok by assumption. eexists. split; [reflexivity|].
  assert (common s expt = length (pyset s)) as ->.
  { unfold common. f_equal.
    assert (G : forall x, In x (pyset s) -> existsb (Nat.eqb x) (pyset expt) = true).
    { intros x Hx. rewrite in_pyset in Hx. unfold s in Hx.
      apply In_nth_error in Hx as (i & Hi).
      assert (i < find_pos e recv + 1).
      { assert (i < length (firstn (find_pos e recv + 1) recv)) by (apply nth_error_Some; congruence).
        rewrite firstn_length in *. lia. }
      assert (nth_error recv i = Some x).
      { rewrite <- Hi. rewrite <- (firstn_skipn (find_pos e recv + 1) recv) at 1.
        apply nth_error_app1. apply nth_error_Some. congruence. }
      assert (In x expt) as Hin.
      { destruct (Nat.eq_dec i (find_pos e recv)) as [->|].
        - rewrite Hpos in *. congruence.
        - eapply H2; [|eassumption|exact Hpos|exact He]. lia. }
      apply existsb_exists. exists x. rewrite in_pyset, Nat.eqb_refl. auto. }
    revert G. generalize (pyset s). induction l as [|a l IH]; intros G; [reflexivity|].
    cbn. rewrite (G a (or_introl eq_refl)). f_equal. apply IH. intros; apply G; right; auto. }
  pose proof (qnat_pos _ Hs). field. lra.
Qed.

Lemma average_prec_ok argsort d : (fst d <> [] -> ranking argsort (snd d) <> []) ->
  exists x, average_prec argsort d = Ok x /\ (0 <= x <= 1)%Q /\ (fst d = [] -> x == 0)%Q.
Proof.
  destruct d as [expt row]. cbn [fst snd]. intros H. unfold average_prec.
  destruct expt as [|e0 expt'] eqn:E; [exists 0%Q; repeat split; lra|].
  rewrite <- E in *. assert (Hne : expt <> []) by congruence.
  specialize (H ltac:(congruence)).
  destruct (sum_res_total (prec_at (ranking argsort row) expt) expt) as (s & Hs).
  { intros a _. destruct (prec_at_ok (ranking argsort row) expt a H) as (x & Hx & _). eauto. }
  rewrite Hs. cbn [bind]. eexists. split; [reflexivity|].
  destruct (sum_res_ok _ _ _ Hs) as (g & G1 & G2 & G3).
  assert (HB : forall a, In a expt -> (0 <= g a <= 1)%Q).
  { intros a _. destruct (prec_at_ok (ranking argsort row) expt a H) as (x & Hx & Hb).
    rewrite (G2 _ _ Hx). exact Hb. }
  assert (HL : (0 < qnat (length expt))%Q).
  { apply qnat_pos. destruct expt; [congruence|cbn; lia]. }
  assert (0 <= s)%Q.
  { rewrite G3. setoid_replace 0%Q with (qsum (fun _ : nat => 0%Q) expt) by (rewrite qsum_const; ring).
    apply qsum_le. apply HB. }
  assert (s <= qnat (length expt))%Q.
  { rewrite G3. setoid_replace (qnat (length expt)) with (qsum (fun _ : nat => 1%Q) expt) by (rewrite qsum_const; ring).
    apply qsum_le. apply HB. }
  change (inject_Z (Z.of_nat (length expt))) with (qnat (length expt)).
  split; [split|intros; congruence].
  - apply Qle_shift_div_l; lra.
  - apply Qle_shift_div_r; lra.
Qed.

Lemma average_prec_perfect argsort d : fst d <> [] -> perfect (fst d) (ranking argsort (snd d)) ->
  exists x, average_prec argsort d = Ok x /\ (x == 1)%Q.
Proof.
  destruct d as [expt row]. cbn [fst snd]. intros Hne H. unfold average_prec.
  destruct expt as [|e0 expt'] eqn:E; [congruence|]. rewrite <- E in *.
  destruct (sum_res_total (prec_at (ranking argsort row) expt) expt) as (s & Hs).
  { intros a Ha. destruct (prec_at_perfect (ranking argsort row) expt a H Ha) as (x & Hx & _). eauto. }
  rewrite Hs. cbn [bind]. eexists. split; [reflexivity|].
  destruct (sum_res_ok _ _ _ Hs) as (g & G1 & G2 & G3).
  assert (HL : (0 < qnat (length expt))%Q).
  { apply qnat_pos. rewrite E. cbn. lia. }
  assert (s == qnat (length expt))%Q.
  { rewrite G3. setoid_replace (qnat (length expt)) with (qsum (fun _ : nat => 1%Q) expt) by (rewrite qsum_const; ring).
    apply qsum_ext. intros a Ha. destruct (prec_at_perfect (ranking argsort row) expt a H Ha) as (x & Hx & E1).
    rewrite (G2 _ _ Hx). exact E1. }
  change (inject_Z (Z.of_nat (length expt))) with (qnat (length expt)).
  rewrite H0. field. lra.
Qed.

(** ** Rankings *)
Lemma ranking_perm argsort row : sorts argsort -> Permutation (ranking argsort row) (map fst row).
Proof.
  intros H. unfold ranking. destruct (H (map snd row)) as [HP _]. rewrite map_length in HP.
  transitivity (map (fun i => nth i (map fst row) 0) (seq 0 (length row))).
  - apply Permutation_map. rewrite <- Permutation_rev. exact HP.
  - clear. induction row as [|a row IH]; [reflexivity|]. cbn [length map seq nth].
    rewrite <- seq_shift, map_map. cbn [nth]. constructor. exact IH.
Qed.

Lemma ranking_nil argsort row : sorts argsort -> (ranking argsort row = [] <-> row = []).
Proof.
  intros H. pose proof (ranking_perm argsort row H) as HP. apply Permutation_length in HP.
  rewrite map_length in HP. split; intros E; [rewrite E in HP|subst; cbn in HP].
  - destruct row; [reflexivity|discriminate].
  - destruct (ranking argsort []); [reflexivity|discriminate].
Qed.

Lemma nth_error_rev {A} (l : list A) i : i < length l -> nth_error (rev l) i = nth_error l (length l - 1 - i).
Proof.
  intros H. destruct l as [|d l'] eqn:E; [cbn in H; lia|]. rewrite <- E in *.
  rewrite (nth_error_nth' (rev l) d) by (rewrite rev_length; lia).
  rewrite (nth_error_nth' l d) by lia. f_equal. rewrite rev_nth by lia. f_equal. lia.
Qed.

Lemma scores_perfect argsort expt row : sorts argsort -> NoDup (map fst row) ->
  scores_favour expt row -> perfect expt (ranking argsort row).
Proof.
  intros Hs Hnd [H1 H2]. split.
  - intros e He. eapply Permutation_in; [apply Permutation_sym, ranking_perm; exact Hs|auto].
  - intros i j x y Hij Hx Hy Hin.
    destruct (in_dec Nat.eq_dec x expt) as [|Hn]; [assumption|exfalso].
    unfold ranking in Hx, Hy. rewrite nth_error_map in Hx, Hy.
    destruct (nth_error (rev (argsort (map snd row))) i) as [a|] eqn:Ea; [|discriminate].
    destruct (nth_error (rev (argsort (map snd row))) j) as [b|] eqn:Eb; [|discriminate].
    cbn in Hx, Hy. injection Hx as Hx. injection Hy as Hy.
    destruct (Hs (map snd row)) as [HP HO]. set (l := argsort (map snd row)) in *.
    assert (Li : i < length l) by (rewrite <- rev_length; apply nth_error_Some; congruence).
    assert (Lj : j < length l) by (rewrite <- rev_length; apply nth_error_Some; congruence).
    rewrite nth_error_rev in Ea, Eb by assumption.
    assert (HO' := HO (length l - 1 - j) (length l - 1 - i) b a ltac:(lia) Eb Ea).
    assert (Hb : forall c k, nth_error l k = Some c -> c < length row).
    { intros c k Hc. apply nth_error_In in Hc. eapply Permutation_in in Hc; [|exact HP].
      apply in_seq in Hc. rewrite map_length in Hc. lia. }
    assert (Ha' := Hb _ _ Ea). assert (Hb' := Hb _ _ Eb).
    assert (G : forall c, c < length row -> In (nth c (map fst row) 0, nth c (map snd row) 0%Q) row).
    { clear. induction row as [|[u v] row IH]; intros [|c] Hc; cbn in *; try lia; auto. right. apply IH. lia. }
    specialize (H2 y (nth b (map snd row) 0%Q) x (nth a (map snd row) 0%Q)).
    assert (nth a (map snd row) 0 < nth b (map snd row) 0)%Q; [|lra].
    apply H2; auto; [rewrite <- Hy|rewrite <- Hx]; apply G; assumption.
Qed.

(** ** Mean reciprocal rank *)
Lemma mrr_scan_spec x expt : NoDup expt ->
  let '(l, n) := mrr_scan x expt in
  NoDup l /\ (forall y, In y l <-> In y expt /\ y <> x) /\
  n = (if in_dec Nat.eq_dec x expt then 1 else 0) /\ length l + n = length expt.
Proof.
  assert (G : forall k expt, length expt <= k -> NoDup expt ->
   let '(l, n) := mrr_scan x expt in
   NoDup l /\ (forall y, In y l <-> In y expt /\ y <> x) /\
   n = (if in_dec Nat.eq_dec x expt then 1 else 0) /\ length l + n = length expt /\
   (~ In x expt -> l = expt)).
  { induction k as [|k IH]; intros ex Hk Hnd.
    - destruct ex; [|cbn in Hk; lia]. cbn. repeat split; auto; try tauto; try constructor.
    - destruct ex as [|e rest]; [cbn; repeat split; auto; try tauto; try constructor|].
      inversion Hnd as [|? ? He Hnd']; subst. cbn [mrr_scan]. destruct (Nat.eqb_spec x e) as [->|Hne].
      + destruct rest as [|s rest'].
        * cbn. destruct (Nat.eq_dec e e); [|congruence].
          split; [constructor|]. split; [intuition congruence|]. split; [reflexivity|]. split; [reflexivity|].
          intros X. exfalso. apply X. left. auto.
        * inversion Hnd' as [|? ? Hs Hnd'']; subst.
          assert (He' : ~ In e rest') by (intros X; apply He; right; exact X).
          specialize (IH rest' ltac:(cbn in Hk; lia) Hnd'').
          destruct (mrr_scan e rest') as [l n]. destruct IH as (N & M & C & L & U).
          rewrite (U He') in *. destruct (in_dec Nat.eq_dec e rest'); [contradiction|]. subst n.
          split; [exact Hnd'|]. split.
          { intros y. cbn. split.
            - intros [<-|Hy]; (split; [tauto|]); intros ->; apply He; [left; auto|right; auto].
            - intros [[->|[->|Hy]] Hn]; auto. congruence. }
          split. { destruct (in_dec Nat.eq_dec e (e :: s :: rest')) as [|X]; [reflexivity|exfalso; apply X; left; auto]. }
          split; [cbn; lia|]. intros X. exfalso. apply X. left. auto.
      + specialize (IH rest ltac:(cbn in Hk; lia) Hnd'). destruct (mrr_scan x rest) as [l n].
        destruct IH as (N & M & C & L & U). split.
        { constructor; auto. intros X. apply M in X. tauto. }
        split. { intros y. cbn. rewrite M. split; [intros [<-|]; intuition congruence|intuition]. }
        split. { rewrite C. destruct (in_dec Nat.eq_dec x rest), (in_dec Nat.eq_dec x (e :: rest)); auto.
          - exfalso. apply n0. right. auto.
          - exfalso. destruct i; congruence. }
        split; [cbn; lia|]. intros X. rewrite U; [reflexivity|]. intros Y. apply X. right. auto. }
  intros Hnd. specialize (G (length expt) expt (le_n _) Hnd). destruct (mrr_scan x expt). tauto.
Qed.

(** One over the rank from [r] on, zero if absent. *)
Definition recip (r : nat) (recv : list nat) (e : nat) : Q :=
  if in_dec Nat.eq_dec e recv then (1 / qnat (r + find_pos e recv + 1))%Q else 0%Q.

Lemma filter_in_perm (p : nat -> bool) l r : NoDup l -> NoDup r -> (forall x, In x l <-> In x r /\ p x = true) ->
  Permutation l (filter p r).
Proof. intros. apply NoDup_Permutation; auto; [apply NoDup_filter; auto|]. intros x. rewrite filter_In. auto. Qed.

Lemma filter_perm_len {A} (p : A -> bool) l r : Permutation l r -> length (filter p l) = length (filter p r).
Proof.
  induction 1; cbn; auto.
  - destruct (p x); cbn; auto.
  - destruct (p x), (p y); cbn; auto.
  - congruence.
Qed.

Lemma mrr_loop_spec recv : forall r expt, NoDup recv -> NoDup expt ->
  (fst (mrr_loop r recv expt) == qsum (recip r recv) expt)%Q /\
  snd (mrr_loop r recv expt) = length (filter (fun e => if in_dec Nat.eq_dec e recv then true else false) expt).
Proof.
  induction recv as [|x recv IH]; intros r expt Hr He.
  - cbn. split; [|induction expt; cbn; auto; inversion He; auto].
    unfold recip. cbn. rewrite qsum_const. ring.
  - destruct expt as [|e0 ex] eqn:E; [cbn; split; reflexivity|]. rewrite <- E in *.
    assert (Hmr : mrr_loop r (x :: recv) expt = 
       let '(expt', n) := mrr_scan x expt in
           let '(s, c) := mrr_loop (S r) recv expt' in
           ((inject_Z (Z.of_nat n) * (1 / inject_Z (Z.of_nat (r + 1))) + s)%Q, n + c)) by (rewrite E; reflexivity).
    rewrite Hmr. clear Hmr E e0 ex. inversion Hr as [|? ? Hx Hr']; subst.
    pose proof (mrr_scan_spec x expt He) as HS. destruct (mrr_scan x expt) as [l n].
    destruct HS as (N & M & C & L). destruct (IH (S r) l Hr' N) as [I1 I2].
    destruct (mrr_loop (S r) recv l) as [s c]. cbn [fst snd] in *.
    assert (HPn : In x expt -> Permutation expt (x :: l)).
    { intros Hin. apply NoDup_Permutation; auto.
      - constructor; auto. rewrite M. tauto.
      - intros y. cbn. rewrite M. destruct (Nat.eq_dec y x) as [->|]; intuition congruence. }
    assert (HPa : ~ In x expt -> Permutation expt l).
    { intros Hn. apply NoDup_Permutation; auto. intros y. rewrite M. intuition congruence. }
    assert (Hrec : forall e, e <> x -> (recip r (x :: recv) e == recip (S r) recv e)%Q).
    { intros e Hne. unfold recip. cbn [find_pos]. rewrite (proj2 (Nat.eqb_neq x e)) by congruence.
      destruct (in_dec Nat.eq_dec e recv) as [i|i], (in_dec Nat.eq_dec e (x :: recv)) as [j|j].
      - replace (S r + find_pos e recv + 1) with (r + S (find_pos e recv) + 1) by lia. reflexivity.
      - exfalso. apply j. right. auto.
      - exfalso. destruct j; congruence.
      - reflexivity. }
    assert (Hl : forall e, In e l -> e <> x) by (intros e X; apply M in X; tauto).
    assert (Hcnt : length (filter (fun e => if in_dec Nat.eq_dec e (x :: recv) then true else false) l)
       = length (filter (fun e => if in_dec Nat.eq_dec e recv then true else false) l)).
    { f_equal. apply filter_ext_in. intros e X. specialize (Hl e X).
      destruct (in_dec Nat.eq_dec e recv) as [i|i], (in_dec Nat.eq_dec e (x :: recv)) as [j|j]; auto.
      - exfalso. apply j. right. auto.
      - exfalso. destruct j; congruence. }
    destruct (in_dec Nat.eq_dec x expt) as [Hin|Hin]; subst n.
    + split.
      * rewrite (qsum_perm _ _ _ (HPn Hin)), qsum_cons. 
        rewrite (qsum_ext (recip r (x :: recv)) (recip (S r) recv) l) by (intros; apply Hrec; auto).
        rewrite I1. unfold recip at 2. cbn [find_pos]. rewrite Nat.eqb_refl.
        destruct (in_dec Nat.eq_dec x (x :: recv)) as [|X]; [|exfalso; apply X; left; auto].
        rewrite Nat.add_0_r. change (inject_Z (Z.of_nat 1)) with 1%Q. unfold qnat. ring.
      * assert (HP := HPn Hin).
        assert (HL : length (filter (fun e => if in_dec Nat.eq_dec e (x :: recv) then true else false) expt)
          = length (filter (fun e => if in_dec Nat.eq_dec e (x :: recv) then true else false) (x :: l))).
        { apply filter_perm_len. exact HP. }
        rewrite HL. cbn [filter]. destruct (in_dec Nat.eq_dec x (x :: recv)) as [|X]; [|exfalso; apply X; left; auto].
        cbn [length]. rewrite Hcnt, I2. reflexivity.
    + split.
      * rewrite (qsum_perm _ _ _ (HPa Hin)).
        rewrite (qsum_ext (recip r (x :: recv)) (recip (S r) recv) l) by (intros; apply Hrec; auto).
        rewrite I1. change (inject_Z (Z.of_nat 0)) with 0%Q. ring.
      * assert (HP := HPa Hin).
        assert (HL : length (filter (fun e => if in_dec Nat.eq_dec e (x :: recv) then true else false) expt)
          = length (filter (fun e => if in_dec Nat.eq_dec e (x :: recv) then true else false) l)).
        { apply filter_perm_len. exact HP. }
        rewrite HL, Hcnt, I2. reflexivity.
Qed.
