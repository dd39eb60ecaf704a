(** * Property C288: the bound that mtm reports *)
From Coq Require Import List Reals ZArith Arith Bool Lra Lia.
From Verif Require Import Base RealModel RealProofs VbModel VbProofs LinkModel LinkProps CtmModel CtmProofs EarlyModel MtmBoundModel.
Import ListNotations.
Open Scope nat_scope.

Section mtmbound.
  Variables (K D T Q : nat) (W L : mat) (n : vec) (psi : R -> R) (det : mat -> R) (U V : mat) (tiny huge vague : R).
  (** Expected logarithm of the probability of word t in topic k. *)
  Definition ln_word (s : mst) (k t : nat) : R := (psi (m_words s k t) - psi (vsum T (m_words s k)))%R.
  Definition mass (v : vec) : R := vsum K (fun k => exp (v k)).
  (** The best lower bound, over the assignments, of the logarithm of the probability of the
      words of document d and of its links, given its scores. *)
  Definition words_value (s : mst) (d : nat) : R := vsum T (fun t => W d t * (ln (mass (fun k => m_topics s d k + ln_word s k t)) - ln (mass (m_topics s d))))%R.
  Definition links_value (s : mst) (d : nat) : R := vsum D (fun l => L d l * (ln (mass (fun k => m_topics s d k + (m_topics s l k - m_lse s k))) - ln (mass (m_topics s d))))%R.
  (** What the links count for too much. *)
  Definition links_excess (s : mst) (d : nat) : R :=
    (vsum D (fun l => vsum D (fun m => if m =? l then 0 else if Req_EM_T (L d m) 0 then 0 else
        L d l * vsum K (fun k => exp (m_topics s d k + (m_topics s l k - m_lse s k)) / mass (fun k => m_topics s d k + (m_topics s l k - m_lse s k)) * m_topics s m k)))
     - (n d + vsum D (fun e => L e d) - vsum D (L d)) * ln (mass (m_topics s d)))%R.

  Lemma gibbs (a : vec) : 0 < K -> (forall k, k < K -> (tiny <= vsoftmax K a k)%R) -> (0 < tiny)%R ->
    (vsum K (fun k => vsoftmax K a k * a k) - vsum K (fun k => vsoftmax K a k * mb_log tiny (vsoftmax K a k)) = ln (mass a))%R.
  Proof.
    intros HK Ht Hp. rewrite <- vsum_minus. rewrite (vsum_ext K _ (fun k => vsoftmax K a k * ln (mass a)))%R.
    - rewrite vsum_scale_r, vsoftmax_sum by exact HK. ring.
    - intros k Hk. unfold mb_log. replace (rltb (vsoftmax K a k) tiny) with false by (symmetry; apply rltb_false; apply Ht; exact Hk).
      rewrite vsoftmax_is at 3 by exact HK. unfold softmax. fold (mass a). unfold Rdiv.
      assert (P : (0 < mass a)%R) by (apply vsum_pos; [exact HK|intros; apply exp_pos]).
      rewrite ln_mult by (try apply Rinv_0_lt_compat; try apply exp_pos; exact P). rewrite ln_exp, ln_Rinv by exact P. ring.
  Qed.
  Lemma lse_is v : 0 < K -> (tiny < mass v)%R -> mb_lse K tiny huge v = ln (mass v).
  Proof. intros HK H. unfold mb_lse. fold (mass v). cbv zeta. rewrite (proj2 (rltb_true _ _) H). reflexivity. Qed.

  (** No share and no mass is so small that it is replaced. *)
  Definition large (s : mst) : Prop := forall d, d < D -> (tiny < mass (m_topics s d))%R /\
    (forall t k, t < T -> k < K -> (tiny <= word_share K T psi (m_words s) (m_topics s) d t k)%R) /\
    (forall l k, l < D -> k < K -> (tiny <= link_share K (m_lse s) (m_topics s) d l k)%R).

  Theorem C288_words s d : 0 < K -> d < D -> (0 < tiny)%R -> large s -> n d = vsum T (W d) -> mb_words K T W n psi tiny huge s d = words_value s d.
  Proof.
    intros HK Hd Hp HL Hn. destruct (HL d Hd) as (H1 & H2 & _). unfold mb_words, words_value. cbv zeta. rewrite (lse_is _ HK H1), Hn.
    set (z := word_share K T psi (m_words s) (m_topics s) d) in *.
    rewrite (vsum_ext T (fun t => W d t * _)%R (fun t => W d t * ln (mass (fun k => m_topics s d k + ln_word s k t)) - W d t * ln (mass (m_topics s d)))%R) by (intros; ring).
    rewrite vsum_minus, vsum_scale_r.
    rewrite (vsum_ext T (fun t => W d t * ln (mass _))%R (fun t => vsum K (fun k => m_topics s d k * (z t k * W d t)) + vsum K (fun k => W d t * z t k * (psi (m_words s k t) - psi (vsum T (m_words s k))))
      - vsum K (fun k => z t k * mb_log tiny (z t k)) * W d t)%R).
    - rewrite vsum_minus, vsum_plus. ring.
    - intros t Ht. pose proof (gibbs (fun k => psi (m_words s k t) - psi (vsum T (m_words s k)) + m_topics s d k)%R HK (fun k Hk => H2 t k Ht Hk) Hp) as G.
      change (vsoftmax K (fun k => psi (m_words s k t) - psi (vsum T (m_words s k)) + m_topics s d k)%R) with (z t) in G.
      replace (mass (fun k => m_topics s d k + ln_word s k t)%R) with (mass (fun k => psi (m_words s k t) - psi (vsum T (m_words s k)) + m_topics s d k)%R) by (apply vsum_ext; intros; unfold ln_word; f_equal; ring).
      rewrite <- G. rewrite Rmult_minus_distr_l, <- vsum_scale. rewrite <- vsum_plus.
      rewrite (vsum_ext K (fun k => W d t * (z t k * _))%R (fun i => m_topics s d i * (z t i * W d t) + W d t * z t i * (psi (m_words s i t) - psi (vsum T (m_words s i))))%R) by (intros; ring). ring.
  Qed.

  Theorem C288_links s d : 0 < K -> d < D -> (0 < tiny)%R -> large s -> mb_links K D L n tiny huge s d = (links_value s d + links_excess s d)%R.
  Proof.
    intros HK Hd Hp HL. destruct (HL d Hd) as (H1 & _ & H2). unfold mb_links, links_value, links_excess, out_count. cbv zeta. rewrite (lse_is _ HK H1).
    set (y := link_share K (m_lse s) (m_topics s) d) in *.
    rewrite (vsum_ext D (fun l => L d l * (ln _ - _))%R (fun l => L d l * ln (mass (fun k => m_topics s d k + (m_topics s l k - m_lse s k))) - L d l * ln (mass (m_topics s d)))%R) by (intros; ring).
    rewrite vsum_minus, vsum_scale_r.
    assert (EY : forall l k, l < D -> y l k = (exp (m_topics s d k + (m_topics s l k - m_lse s k)) / mass (fun k => m_topics s d k + (m_topics s l k - m_lse s k)))%R).
    { intros l k Hl. unfold y, link_share. rewrite vsoftmax_is by exact HK. unfold softmax, mass. f_equal; [f_equal; ring|]. apply vsum_ext. intros. f_equal. ring. }
    assert (EG : forall l, l < D -> (L d l * ln (mass (fun k => m_topics s d k + (m_topics s l k - m_lse s k))) = - (L d l * vsum K (fun k => y l k * mb_log tiny (y l k)))
       + vsum K (fun k => y l k * L d l * m_topics s d k) + vsum K (fun k => y l k * L d l * m_topics s l k) - vsum K (fun k => y l k * L d l * m_lse s k))%R).
    { intros l Hl. pose proof (gibbs (fun k => m_topics s l k - m_lse s k + m_topics s d k)%R HK (fun k Hk => H2 l k Hl Hk) Hp) as G.
      change (vsoftmax K (fun k => m_topics s l k - m_lse s k + m_topics s d k)%R) with (y l) in G.
      replace (mass (fun k => m_topics s d k + (m_topics s l k - m_lse s k))%R) with (mass (fun k => m_topics s l k - m_lse s k + m_topics s d k)%R) by (apply vsum_ext; intros; f_equal; ring).
      rewrite <- G, Rmult_minus_distr_l, <- vsum_scale.
      rewrite (vsum_ext K (fun k => L d l * (y l k * _))%R (fun k => y l k * L d l * m_topics s d k + y l k * L d l * m_topics s l k - y l k * L d l * m_lse s k)%R) by (intros; ring).
      rewrite vsum_minus, vsum_plus. ring. }
    rewrite (vsum_ext D _ _ EG). rewrite vsum_minus, !vsum_plus, vsum_opp.
    assert (EX : vsum D (fun l => vsum D (fun m => stored L d m * vsum K (fun k => y l k * L d l * m_topics s m k)))%R
      = (vsum D (fun l => vsum K (fun k => y l k * L d l * m_topics s l k)) + vsum D (fun l => vsum D (fun m => if m =? l then 0 else if Req_EM_T (L d m) 0 then 0 else
        L d l * vsum K (fun k => exp (m_topics s d k + (m_topics s l k - m_lse s k)) / mass (fun k => m_topics s d k + (m_topics s l k - m_lse s k)) * m_topics s m k))))%R).
    { rewrite <- vsum_plus. apply vsum_ext. intros l Hl.
      rewrite <- (vsum_eye D l (fun m => vsum K (fun k => y m k * L d m * m_topics s m k))%R Hl). rewrite <- vsum_plus. apply vsum_ext. intros m Hm. unfold eye, stored.
      rewrite (Nat.eqb_sym m l). destruct (l =? m) eqn:E.
      - apply Nat.eqb_eq in E. subst m. destruct (Req_EM_T (L d l) 0) as [E0|E0]; [|ring].
        rewrite (vsum_ext K (fun k => y l k * L d l * m_topics s l k)%R (fun _ => 0%R)) by (intros; rewrite E0; ring). rewrite vsum_zero. ring.
      - destruct (Req_EM_T (L d m) 0); [ring|]. rewrite Rmult_0_l, Rplus_0_l, Rmult_1_l, <- vsum_scale. apply vsum_ext. intros k Hk. rewrite (EY l k Hl). ring. }
    rewrite EX. ring.
  Qed.
End mtmbound.

(** Two documents with one word each, the first with a link to the second; one topic, with
    score c in both. *)
Definition lk : mat := fun d l => if (d =? 0) && (l =? 1) then 1%R else 0%R.
Definition st (c : R) : mst :=
  {| m_topics := fun _ _ => c; m_post := fun _ _ => 0%R; m_bydoc := fun _ => c; m_bytop := fun _ => (2 * c)%R; m_exp_bydoc := fun _ => exp c; m_exp_bytop := fun _ => (2 * exp c)%R;
     m_lse := fun _ => ln (2 * exp c); m_in := fun _ => 1%R; m_words := fun _ _ => 1%R; m_cov := fun _ _ => 1%R |}.
Definition ones : mat := fun _ _ => 1%R.
Lemma soft1 (v : vec) : vsoftmax 1 v 0 = 1%R.
Proof. unfold vsoftmax, vsum. cbn [seq map rsum]. pose proof (exp_pos (v 0%nat - vmax 1 v)). field. lra. Qed.
Lemma large_st psi c tiny : (0 < tiny < exp c)%R -> (tiny <= 1)%R -> large 1 2 1 psi tiny (st c).
Proof.
  intros Hc H1 d Hd. unfold mass, vsum. cbn [seq map rsum m_topics st]. split; [lra|].
  split; intros x k Hx Hk; assert (k = 0) by lia; subst k; unfold word_share, link_share; rewrite soft1; exact H1.
Qed.
Lemma counted d : d < 2 -> (fun _ : nat => 1%R) d = vsum 1 (ones d).
Proof. intros _. unfold vsum, ones. cbn. lra. Qed.
Lemma values psi c tiny huge : (0 < tiny < exp c)%R -> (tiny <= 1)%R ->
  words_value 1 1 ones psi (st c) 0 = 0%R /\ words_value 1 1 ones psi (st c) 1 = 0%R /\ links_value 1 2 lk (st c) 0 = (- ln 2)%R /\ links_value 1 2 lk (st c) 1 = 0%R /\
  mb_links 1 2 lk (fun _ => 1%R) tiny huge (st c) 0 = (- ln 2)%R /\ mb_links 1 2 lk (fun _ => 1%R) tiny huge (st c) 1 = (- (2 * c))%R.
Proof.
  intros Hc H1. assert (LN : ln (2 * exp c) = (ln 2 + c)%R) by (rewrite ln_mult, ln_exp by (try apply exp_pos; lra); ring).
  assert (V0 : links_value 1 2 lk (st c) 0 = (- ln 2)%R /\ links_value 1 2 lk (st c) 1 = 0%R).
  { unfold links_value, mass, vsum, lk. cbn [seq map rsum m_topics st m_lse Nat.eqb andb]. rewrite LN. rewrite !Rplus_0_r, !ln_exp. split; ring. }
  assert (X0 : links_excess 1 2 lk (fun _ => 1%R) (st c) 0 = 0%R /\ links_excess 1 2 lk (fun _ => 1%R) (st c) 1 = (- (2 * c))%R).
  { unfold links_excess, mass, vsum, lk. cbn [seq map rsum m_topics st m_lse Nat.eqb andb]. rewrite !Rplus_0_r, !ln_exp.
    destruct (Req_EM_T 0 0) as [_|N]; [|elim N; reflexivity]. destruct (Req_EM_T 1 0); [lra|]. split; ring. }
  split; [|split; [|split; [apply V0|split; [apply V0|]]]].
  1,2: unfold words_value, mass, ln_word, vsum, ones; cbn [seq map rsum m_topics st m_words]; rewrite !Rplus_0_r, !ln_exp; ring.
  split.
  - rewrite (C288_links 1 2 1 lk (fun _ => 1%R) psi tiny huge (st c) 0) by (try lia; try lra; apply large_st; assumption). rewrite (proj1 V0), (proj1 X0). ring.
  - rewrite (C288_links 1 2 1 lk (fun _ => 1%R) psi tiny huge (st c) 1) by (try lia; try lra; apply large_st; assumption). rewrite (proj2 V0), (proj2 X0). ring.
Qed.
Definition det1 (M : mat) : R := M 0 0.
Lemma reported psi c tiny huge vague : (0 < tiny < exp c)%R -> (tiny <= 1)%R ->
  mtm1_bound 1 2 1 1 ones lk (fun _ => 1%R) psi det1 ones (fun _ _ => c) tiny huge vague (st c) = (- (2 * ln (2 * PI) + 1 + 2 * ln vague) - ln 2 - 2 * c)%R.
Proof.
  intros Hc H1. destruct (values psi c tiny huge Hc H1) as (W0 & W1 & _ & _ & L0 & L1). unfold mtm1_bound.
  change (vsum 2 (mb_words 1 1 ones (fun _ => 1%R) psi tiny huge (st c))) with (mb_words 1 1 ones (fun _ => 1%R) psi tiny huge (st c) 0 + (mb_words 1 1 ones (fun _ => 1%R) psi tiny huge (st c) 1 + 0))%R.
  change (vsum 2 (mb_links 1 2 lk (fun _ => 1%R) tiny huge (st c))) with (mb_links 1 2 lk (fun _ => 1%R) tiny huge (st c) 0 + (mb_links 1 2 lk (fun _ => 1%R) tiny huge (st c) 1 + 0))%R.
  rewrite (C288_words 1 2 1 ones (fun _ => 1%R) psi tiny huge (st c) 0), (C288_words 1 2 1 ones (fun _ => 1%R) psi tiny huge (st c) 1) by (try lia; try lra; try (apply large_st; assumption); apply counted; lia).
  rewrite W0, W1, L0, L1. unfold mb_topics, prior_mean, det1, ones, vsum. cbn [seq map rsum m_topics m_cov m_post st INR]. rewrite (ln_mult (2 * PI) (exp 1)), ln_exp, ln_1 by (try apply exp_pos; pose proof PI_RGT_0; lra).
  unfold Rdiv. generalize (/ (2 * vague))%R. intros i. field.
Qed.
(** Scores that differ by a constant, with the same distributions of topics, words and links,
    have bounds that differ. *)
Theorem C288_shift_refuted psi : exists K D T Q W L n det U V V' tiny huge vague s s' c, (0 < tiny)%R /\ large K D T psi tiny s /\ large K D T psi tiny s' /\
  (forall d, d < D -> n d = vsum T (W d)) /\ (forall d k, m_topics s' d k = m_topics s d k + c)%R /\ (forall d k, prior_mean Q U V' d k = prior_mean Q U V d k + c)%R /\
  (forall k, exp (m_lse s k) = vsum D (fun d => exp (m_topics s d k))) /\ (forall k, exp (m_lse s' k) = vsum D (fun d => exp (m_topics s' d k))) /\
  m_words s' = m_words s /\ m_cov s' = m_cov s /\ m_post s' = m_post s /\
  (forall d, d < D -> words_value K T W psi s' d = words_value K T W psi s d /\ links_value K D L s' d = links_value K D L s d) /\
  mtm1_bound K D T Q W L n psi det U V' tiny huge vague s' <> mtm1_bound K D T Q W L n psi det U V tiny huge vague s.
Proof.
  exists 1, 2, 1, 1, ones, lk, (fun _ => 1%R), det1, ones, (fun _ _ => 0%R), (fun _ _ => 1%R), (1 / 1000)%R, 1%R, 1%R, (st 0), (st 1), 1%R.
  assert (E0 : exp 0 = 1%R) by apply exp_0. assert (E1 : (1 < exp 1)%R) by (rewrite <- E0; apply exp_increasing; lra).
  assert (P0 : (0 < 1 / 1000 < exp 0)%R) by lra. assert (P1 : (0 < 1 / 1000 < exp 1)%R) by lra. assert (P2 : (1 / 1000 <= 1)%R) by lra.
  split; [lra|]. split; [apply large_st; assumption|]. split; [apply large_st; assumption|]. split; [exact counted|]. split; [intros; cbn; lra|].
  split; [intros; unfold prior_mean, ones, vsum; cbn; lra|].
  split; [intros; unfold vsum; cbn [seq map rsum m_lse m_topics st]; rewrite exp_ln; lra|]. split; [intros; unfold vsum; cbn [seq map rsum m_lse m_topics st]; rewrite exp_ln; lra|].
  split; [reflexivity|]. split; [reflexivity|]. split; [reflexivity|].
  split.
  - intros d Hd. destruct (values psi 0 _ 1 P0 P2) as (A & B & C & D & _). destruct (values psi 1 _ 1 P1 P2) as (A' & B' & C' & D' & _).
    destruct d as [|[|d]]; [| |lia]; rewrite ?A, ?A', ?B, ?B', ?C, ?C', ?D, ?D'; split; reflexivity.
  - rewrite (reported psi 0 _ 1 1 P0 P2), (reported psi 1 _ 1 1 P1 P2). lra.
Qed.
(** The value is positive where the words are certain and the link is not. *)
Theorem C288_not_positive_refuted psi : exists K D T Q W L n det U V tiny huge vague s, (0 < tiny)%R /\ (0 < vague)%R /\ large K D T psi tiny s /\
  (forall d, d < D -> n d = vsum T (W d)) /\ (forall k, exp (m_lse s k) = vsum D (fun d => exp (m_topics s d k))) /\
  (vsum D (fun d => words_value K T W psi s d + links_value K D L s d) < 0)%R /\ (0 < mtm1_bound K D T Q W L n psi det U V tiny huge vague s)%R.
Proof.
  set (c := (-100)%R). assert (Hc : (0 < exp c)%R) by apply exp_pos. assert (Hc1 : (exp c < 1)%R) by (rewrite <- exp_0; apply exp_increasing; unfold c; lra).
  exists 1, 2, 1, 1, ones, lk, (fun _ => 1%R), det1, ones, (fun _ _ => c), (exp c / 2)%R, 1%R, 1%R, (st c).
  assert (P0 : (0 < exp c / 2 < exp c)%R) by lra. assert (P2 : (exp c / 2 <= 1)%R) by lra.
  split; [lra|]. split; [lra|]. split; [apply large_st; assumption|]. split; [exact counted|]. split; [intros; unfold vsum; cbn [seq map rsum m_lse m_topics st]; rewrite exp_ln; lra|].
  assert (L2 : (0 < ln 2)%R) by (rewrite <- ln_1; apply ln_increasing; lra).
  split. { destruct (values psi c _ 1 P0 P2) as (A & B & C & D & _).
    change (words_value 1 1 ones psi (st c) 0 + links_value 1 2 lk (st c) 0 + (words_value 1 1 ones psi (st c) 1 + links_value 1 2 lk (st c) 1 + 0) < 0)%R. rewrite A, B, C, D. lra. }
  rewrite (reported psi c _ 1 1 P0 P2), ln_1. pose proof PI_RGT_0. pose proof PI_4.
  assert (B : forall x, (0 < x)%R -> (ln x <= x - 1)%R). { intros x Hx. pose proof (exp_ineq1_le (ln x)) as E. rewrite exp_ln in E by exact Hx. lra. }
  pose proof (B (2 * PI)%R ltac:(lra)). pose proof (B 2%R ltac:(lra)). unfold c. lra.
Qed.
Example C288_case psi : large 1 2 1 psi (1 / 1000) (st 1) /\ (forall d, d < 2 -> (fun _ : nat => 1%R) d = vsum 1 (ones d)) /\ links_excess 1 2 lk (fun _ => 1%R) (st 1) 1 = (-2)%R.
Proof.
  split; [apply large_st; [|lra]; pose proof (exp_ineq1_le 1); lra|]. split; [exact counted|].
  unfold links_excess, mass, vsum, lk. cbn [seq map rsum m_topics st m_lse Nat.eqb andb]. rewrite !Rplus_0_r, !ln_exp.
  destruct (Req_EM_T 0 0) as [_|N]; [|elim N; reflexivity]. ring.
Qed.

Print Assumptions C288_words.
Print Assumptions C288_links.
Print Assumptions C288_shift_refuted.
Print Assumptions C288_not_positive_refuted.
