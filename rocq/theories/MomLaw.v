(** * The law that the membership sampler of the mixture of multinomials keeps, and the
    query that averages its samples. *)
From Coq Require Import List ZArith QArith Qreals Reals Arith Bool Lra Lia.
From Verif Require Import Base RealModel RealProofs MixModel MixProofs VbModel VbProofs BoundSpec BoundProofs GammaProofs BoundMore StationSpec StationProofs.
From Verif Require Import MixBoundSpec MixBoundProofs MomModel MomSpec MomProofs GibbsModel.
Import ListNotations.
Open Scope nat_scope.

Lemma put_split n k A : n < length A -> exists z1 x z2, A = z1 ++ x :: z2 /\ length z1 = n /\ put n k A = z1 ++ k :: z2.
Proof.
  revert n. induction A as [|y A IH]; intros n H; [cbn in H; lia|]. destruct n as [|n].
  - exists [], y, A. repeat split.
  - destruct (IH n ltac:(cbn in H; lia)) as (z1 & x & z2 & E & L & P). exists (y :: z1), x, z2. cbn [app length]. rewrite <- E, L. split; [reflexivity|]. split; [reflexivity|].
    cbn [put]. f_equal. exact P.
Qed.
Lemma ones_vsum (W : list vec) A j : length W = length A ->
  of_topic (map (fun _ => 1%R) W) A j = vsum (length W) (fun d => one_hot (nth d A 0) j).
Proof.
  revert A. induction W as [|w W IH]; intros [|x A] L; try discriminate L; [reflexivity|]. cbn [map]. rewrite of_topic_cons, (IH A) by (injection L; auto).
  cbn [length]. unfold vsum. cbn [seq map rsum nth]. rewrite <- seq_shift, map_map. cbn [nth]. f_equal. unfold one_hot. rewrite Nat.eqb_sym. reflexivity.
Qed.
Definition rprod' (l : list R) : R := fold_right Rmult 1%R l.
Lemma rprod'_mid l1 x l2 : rprod' (l1 ++ x :: l2) = (x * rprod' (l1 ++ l2))%R.
Proof. induction l1 as [|y l1 IH]; [reflexivity|]. cbn [app rprod' fold_right] in *. unfold rprod' in IH. rewrite IH. ring. Qed.
Lemma combine_app' {A B} (l1 : list A) (m1 : list B) l2 m2 : length l1 = length m1 -> combine (l1 ++ l2) (m1 ++ m2) = combine l1 m1 ++ combine l2 m2.
Proof. revert m1. induction l1 as [|x l1 IH]; intros [|y m1] L; try discriminate L; [reflexivity|]. cbn. rewrite IH by (injection L; auto). reflexivity. Qed.
Lemma rprod'_exp {A} (f : A -> R) l : rprod' (map (fun x => exp (f x)) l) = exp (rsum (map f l)).
Proof. induction l as [|x l IH]; [cbn; rewrite exp_0; reflexivity|]. cbn [map rprod' fold_right rsum] in *. unfold rprod' in IH. rewrite IH, exp_plus. reflexivity. Qed.

Section Law.
  Context (a : R) (K T : nat) (phi : nat -> vec) (W : list vec) (alpha : vec) (g : R -> R).
  Notation D := (length W).
  Notation A_ := (assignments K D).
  Notation M0 := (fun (_ _ : nat) => 0%R).
  Notation less := (fun k => (alpha k - 1)%R).
  Notation floored := (fun k t => Rmax a (phi k t)).
  Notation post := (mix_posterior g K T less floored W).
  Notation rest := (rest W alpha M0).
  Notation weight_of := (weight_of a K T phi W alpha M0).
  Hypothesis HK : 0 < K.
  Hypothesis G : gamma_like g.
  Hypothesis Pa : forall k, k < K -> (1 < alpha k)%R.
  Hypothesis A0 : (0 < a)%R.
  Hypothesis Fl : forall k, k < K -> (a * (INR D - 1 + vsum K less) <= alpha k - 1)%R.

  Lemma score_prob d k : exp (word_score a T phi W d k) = doc_prob T (floored k) (nth d W (fun _ => 0%R)).
  Proof using. clear HK G Pa A0 Fl.
    unfold word_score, doc_prob, vsum. fold (rprod' (map (fun t => Rpower (Rmax a (phi k t)) (nth d W (fun _ => 0%R) t)) (seq 0 T))).
    unfold Rpower. rewrite (rprod'_exp (fun t => nth d W (fun _ => 0%R) t * ln (Rmax a (phi k t)))%R). f_equal. apply rsum_ext. intros t _. f_equal.
    unfold safe_ln. destruct (rleb a (phi k t)) eqn:E; [apply rleb_true in E; rewrite Rmax_right by lra|apply rleb_false in E; rewrite Rmax_left by lra]; reflexivity.
  Qed.
  Lemma rest_put d k A j : d < D -> In A A_ -> k < K -> (alpha j - 1 + of_topic (map (fun _ => 1) W) (put d k A) j = rest (1%nat, d) A j + one_hot k j)%R.
  Proof using All.
    intros Hd HA Hk. pose proof HA as [L _]%in_assignments. rewrite ones_vsum by (rewrite put_length; congruence).
    unfold MomProofs.rest. rewrite (vsum_split D d (fun d' => one_hot (nth d' (put d k A) 0) j) Hd). rewrite put_same by lia.
    rewrite (vsum_ext D (fun i => if i =? d then 0 else one_hot (nth i (put d k A) 0%nat) j)%R (fun d' => if d' =? snd (1%nat, d) then 0 else cur M0 (1%nat, d) A d' j)%R); [ring|].
    intros i _. cbn [snd]. destruct (Nat.eqb_spec i d); [reflexivity|]. unfold cur. cbn [fst snd Nat.eqb andb]. rewrite put_other by assumption. reflexivity.
  Qed.
  Lemma rest_total d A : d < D -> In A A_ -> vsum K (rest (1%nat, d) A) = (INR D - 1 + vsum K less)%R.
  Proof using HK. clear G Pa A0 Fl.
    intros Hd HA. pose proof HA as [L F]%in_assignments.
    rewrite (vsum_ext K (rest (1%nat, d) A) (fun j => vsum D (fun d' => if d' =? d then 0 else one_hot (nth d' A 0%nat) j) + (alpha j - 1))%R).
    2:{ intros j _. unfold MomProofs.rest. cbn [snd]. unfold cur. cbn [fst snd Nat.eqb andb]. ring. }
    rewrite (vsum_plus K (fun j => vsum D (fun d' => if d' =? d then 0 else one_hot (nth d' A 0%nat) j))%R). f_equal.
    rewrite vsum_swap. rewrite (vsum_ext D _ (fun d' => 1 - (if d' =? d then 1 else 0))%R).
    2:{ intros d' Hd'. destruct (d' =? d); [rewrite vsum_const; ring|]. rewrite one_hot_sum; [ring|]. eapply nth_in; eassumption. }
    rewrite (vsum_ext D _ (fun d' => 1 + (-1) * (if d' =? d then 1 else 0))%R) by (intros; ring).
    rewrite (vsum_plus D (fun _ => 1%R)), vsum_const, vsum_scale. rewrite (vsum_only D d) by (try exact Hd; intros j _ N; rewrite (proj2 (Nat.eqb_neq j d) N); reflexivity).
    rewrite Nat.eqb_refl. ring.
  Qed.
  Lemma less_pos k : k < K -> (0 < less k)%R.
  Proof using All. intros H. specialize (Pa k H). lra. Qed.
  Lemma exp_weight d A k : d < D -> In A A_ -> k < K ->
    exp (weight_of (1%nat, d) A k) = (doc_prob T (floored k) (nth d W (fun _ => 0%R)) * (rest (1%nat, d) A k / vsum K (rest (1%nat, d) A)))%R.
  Proof using All.
    intros Hd HA Hk. unfold MomProofs.weight_of. cbn [snd]. rewrite exp_plus, score_prob. f_equal.
    assert (PR : (0 < rest (1%nat, d) A k)%R) by (apply (rest_pos K W alpha M0 Pa); [intros; lra|exact Hk]).
    assert (PS : (0 < vsum K (rest (1%nat, d) A))%R) by (apply (rest_sum K W alpha M0 HK Pa); intros; lra).
    unfold safe_ln. assert (X : rleb a (rest (1%nat, d) A k / vsum K (rest (1%nat, d) A)) = true).
    { apply rleb_true. apply Rmult_le_reg_r with (vsum K (rest (1%nat, d) A)); [exact PS|]. unfold Rdiv. rewrite Rmult_assoc, Rinv_l, Rmult_1_r by lra.
      rewrite (rest_total d A Hd HA) at 1. specialize (Fl k Hk). unfold MomProofs.rest. cbn [snd]. unfold cur. cbn [fst snd Nat.eqb andb].
      assert (0 <= vsum D (fun d' => if d' =? d then 0 else one_hot (nth d' A 0%nat) k))%R; [|lra].
      apply vsum_nonneg. intros d' _. destruct (d' =? d); [lra|apply one_hot_nonneg]. }
    rewrite X. rewrite exp_ln; [reflexivity|]. apply Rdiv_lt_0_compat; assumption.
  Qed.
  Lemma given_weights d A : d < D -> In A A_ -> exists C, (0 < C)%R /\ forall k, k < K ->
    mix_given g K T less floored W (put d k A) = (C * exp (weight_of (1%nat, d) A k))%R.
  Proof using All.
    intros Hd HA. pose proof HA as [L _]%in_assignments.
    destruct (nth_split W (fun _ => 0%R) Hd) as (W1 & W2 & EW & L1).
    set (f := fun '((doc, k) : vec * nat) => doc_prob T (floored k) doc).
    destruct (put_split d 0 A ltac:(lia)) as (z1 & x & z2 & EA & LZ & _).
    assert (PP : forall k, put d k A = z1 ++ k :: z2).
    { intros k. rewrite EA, <- LZ. clear. induction z1 as [|y z1 IH]; [reflexivity|]. cbn [app length put]. f_equal. exact IH. }
    exists (exp (lnB g K (rest (1%nat, d) A) - lnB g K less) * rprod' (map f (combine W1 z1 ++ combine W2 z2)))%R.
    assert (PF : forall l, (0 < rprod' (map f l))%R).
    { clear. induction l as [|[doc k] l IH]; [cbn; lra|]. cbn [map rprod' fold_right]. apply Rmult_lt_0_compat; [|exact IH]. unfold f, doc_prob, Rpower.
      change (0 < rprod' (map (fun t => exp (doc t * ln (Rmax a (phi k t)))) (seq 0 T)))%R. rewrite (rprod'_exp (fun t => doc t * ln (Rmax a (phi k t)))%R). apply exp_pos. }
    split; [apply Rmult_lt_0_compat; [apply exp_pos|apply PF]|]. intros k Hk.
    assert (PR : forall i, i < K -> (0 < rest (1%nat, d) A i)%R) by (intros; apply (rest_pos K W alpha M0 Pa); [intros; lra|assumption]).
    assert (PS : (0 < vsum K (rest (1%nat, d) A))%R) by (apply (rest_sum K W alpha M0 HK Pa); intros; lra).
    unfold mix_given. rewrite (lnB_bump g G K (rest (1%nat, d) A) _ k Hk PR).
    - fold f. fold (rprod' (map f (combine W (put d k A)))). rewrite (exp_weight d A k Hd HA Hk).
      replace (map f (combine W (put d k A))) with (map f (combine W1 z1) ++ doc_prob T (floored k) (nth d W (fun _ => 0%R)) :: map f (combine W2 z2)).
      + rewrite rprod'_mid, <- map_app. replace (lnB g K (rest (1%nat, d) A) + ln (rest (1%nat, d) A k / vsum K (rest (1%nat, d) A)) - lnB g K less)%R
          with ((lnB g K (rest (1%nat, d) A) - lnB g K less) + ln (rest (1%nat, d) A k / vsum K (rest (1%nat, d) A)))%R by ring.
        rewrite exp_plus, exp_ln by (apply Rdiv_lt_0_compat; [apply PR, Hk|exact PS]). ring.
      + rewrite PP. rewrite EW at 2. rewrite combine_app' by congruence. rewrite map_app. reflexivity.
    - rewrite rest_put by assumption. unfold one_hot. rewrite Nat.eqb_refl. reflexivity.
    - intros i Hi N. rewrite rest_put by assumption. unfold one_hot. rewrite (proj2 (Nat.eqb_neq i k) N). ring.
  Qed.
  Lemma given_pos A : (0 < mix_given g K T less floored W A)%R.
  Proof using All.
    unfold mix_given. apply Rmult_lt_0_compat; [apply exp_pos|]. generalize (combine W A) as l.
    induction l as [|[doc k] l IH]; [cbn; lra|]. cbn [map fold_right]. apply Rmult_lt_0_compat; [|exact IH]. unfold doc_prob, Rpower.
    change (0 < rprod' (map (fun t => exp (doc t * ln (Rmax a (phi k t)))) (seq 0 T)))%R. rewrite (rprod'_exp (fun t => doc t * ln (Rmax a (phi k t)))%R). apply exp_pos.
  Qed.
  Lemma givens_pos : (0 < rsum (map (mix_given g K T less floored W) A_))%R.
  Proof using All. apply total_pos; [exact HK|]. intros. apply given_pos. Qed.
  Lemma post_fits d : d < D -> fits K D (fun d => d) (kq a K T phi W alpha M0) post d.
  Proof using All.
    intros Hd. apply mom_fits; [exact HK|exact Hd|]. intros A HA. destruct (given_weights d A Hd HA) as (C & _ & E).
    exists (C / rsum (map (mix_given g K T less floored W) A_))%R. intros k Hk. unfold mix_posterior. rewrite (E k Hk). unfold Rdiv. ring.
  Qed.
  Lemma post_nonneg A : (0 <= post A)%R.
  Proof using All. apply Rle_mult_inv_pos; [left; apply given_pos|apply givens_pos]. Qed.
  Lemma post_total : BoundProofs.total K D post = 1%R.
  Proof using All.
    unfold mix_posterior. rewrite (total_ext_in K D _ (fun A => / rsum (map (mix_given g K T less floored W) A_) * mix_given g K T less floored W A)%R) by (intros; unfold Rdiv; ring).
    rewrite total_scale. apply Rinv_l. apply Rgt_not_eq, givens_pos.
  Qed.
End Law.
