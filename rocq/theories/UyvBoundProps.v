(** * Property C289: the bound that sidetopic_uyv reports *)
From Coq Require Import List Reals ZArith Arith Bool Lra Lia.
From Verif Require Import Base RealModel RealProofs VbModel VbProofs LinkModel LinkProps CtmModel CtmProofs CtmProps StmProofs StmProps MtmModel MtmProofs
  MtmProps BouchModel BouchProofs BouchProps VecyProofs UyvModel UyvProofs OldModel OldProofs OldProps OldBoundModel OldBoundProps UyvBoundModel.
Import ListNotations.
Open Scope nat_scope.

Section reported.
  Variables (K Q F P T D : nat) (sigmaSq alphaSq kappaSq tauSq tiny : R) (ldet : nat -> mat -> R) (W X : mat).
  Hypothesis HK : 0 < K.
  Hypothesis Ht : (0 < tiny)%R.
  Hypothesis HW : forall d t, d < D -> t < T -> (0 <= W d t)%R.
  Notation means q := (fun d k => ln (u_exp q d k)).
  Notation xi q := (fun d k => derive_xi (ln (u_exp q d k)) (u_nu q d k) (u_s q d)).
  (** The tangents are those of the means, deviations and offsets, as after a query, and no
      tangent is very large. *)
  Definition queried (q : uyv_query) : Prop := forall d k, d < D -> k < K ->
    (0 < u_exp q d k)%R /\ (0 < u_nu q d k)%R /\ (xi q d k <= 33)%R /\ u_lxi q d k = jaakkola (xi q d k).
  (** The probability of topic k for word t of document d, and its entropy. *)
  Definition share (s : uyv) (q : uyv_query) (d t k : nat) : R := (u_exp q d k * u_vocab s k t / vsum K (fun j => u_exp q d j * u_vocab s j t))%R.
  Definition entropy (s : uyv) (q : uyv_query) (d t : nat) : R := (- vsum K (fun k => share s q d t k * ln (share s q d t k)))%R.
  (** The part of the variational bound that the words have. *)
  Definition words_bound (s : uyv) (q : uyv_query) : R :=
    vsum D (fun d => vsum T (fun t => W d t * ln (vsum K (fun k => u_exp q d k * u_vocab s k t)))
      - vsum T (W d) * (bouchard K (u_s q d) (xi q d) (means q d) + vsum K (fun k => jaakkola (xi q d k) * (u_nu q d k * u_nu q d k))))%R.
  Definition frequent (s : uyv) : Prop := forall k t, k < K -> t < T -> (tiny <= u_vocab s k t)%R.

  Lemma share_split s q d t : frequent s -> queried q -> d < D -> t < T ->
    (W d t / vsum K (fun k => u_exp q d k * u_vocab s k t) * vsum K (fun k => u_exp q d k * (u_vocab s k t * ub_log tiny (u_vocab s k t)))
     + vsum K (fun k => ln (u_exp q d k) * u_exp q d k * (W d t / vsum K (fun k => u_exp q d k * u_vocab s k t) * u_vocab s k t))
     = W d t * ln (vsum K (fun k => u_exp q d k * u_vocab s k t)) - W d t * entropy s q d t)%R.
  Proof.
    intros Hf Hq Hd Hti. set (ms := vsum K (fun k => u_exp q d k * u_vocab s k t)%R).
    assert (Hm : (0 < ms)%R). { apply vsum_pos; [exact HK|]. intros k Hk. pose proof (Hf k t Hk Hti) as G1. destruct (Hq d k Hd Hk) as (G2 & _). apply Rmult_lt_0_compat; lra. }
    unfold entropy. rewrite <- vsum_scale, <- vsum_plus.
    rewrite (vsum_ext K _ (fun k => W d t * (share s q d t k * ln (share s q d t k)) + W d t * (share s q d t k * ln ms))%R).
    - rewrite vsum_plus, !vsum_scale, vsum_scale_r. assert (E : vsum K (share s q d t) = 1%R). { unfold share, Rdiv. rewrite vsum_scale_r. fold ms. field. lra. }
      rewrite E. ring.
    - intros k Hk. pose proof (Hf k t Hk Hti) as H1. destruct (Hq d k Hd Hk) as (H2 & _). unfold share. fold ms. unfold ub_log.
      replace (rltb (u_vocab s k t) tiny) with false by (symmetry; apply rltb_false; exact H1). unfold Rdiv at 4.
      rewrite ln_mult by (try apply Rinv_0_lt_compat; try apply Rmult_lt_0_compat; lra). rewrite ln_Rinv, ln_mult by lra. field. lra.
  Qed.

  Theorem C289_words s q : frequent s -> queried q ->
    ub_words K T D tiny W s q = (words_bound s q - vsum D (fun d => vsum T (fun t => W d t * entropy s q d t)))%R.
  Proof.
    intros Hf Hq. unfold ub_words, words_bound, quotient. cbv zeta. rewrite <- !vsum_scale. unfold Rminus at 1 2 3 4 5 6 7. rewrite <- !vsum_opp, <- !vsum_plus. apply vsum_ext. intros d Hd.
    set (n := vsum T (W d)). set (ms := fun t => vsum K (fun k => u_exp q d k * u_vocab s k t)%R).
    assert (E1 : (vsum T (fun t => W d t * ln (ms t)) - vsum T (fun t => W d t * entropy s q d t)
      = vsum T (fun t => W d t / ms t * vsum K (fun k => u_exp q d k * (u_vocab s k t * ub_log tiny (u_vocab s k t))))
        + vsum K (fun k => ln (u_exp q d k) * u_exp q d k * vsum T (fun t => W d t / ms t * u_vocab s k t)))%R).
    { rewrite (vsum_ext K (fun k => ln (u_exp q d k) * u_exp q d k * vsum T _)%R (fun k => vsum T (fun t => ln (u_exp q d k) * u_exp q d k * (W d t / ms t * u_vocab s k t)))%R) by (intros k _; rewrite <- vsum_scale; reflexivity).
      rewrite (vsum_swap K T), <- vsum_plus, <- vsum_minus. apply vsum_ext. intros t Hti. symmetry. apply share_split; assumption. }
    assert (E2 : (n * (bouchard K (u_s q d) (xi q d) (means q d) + vsum K (fun k => jaakkola (xi q d k) * (u_nu q d k * u_nu q d k))))%R
      = (n * u_s q d + vsum K (fun k => n * ln (u_exp q d k) * u_lxi q d k * ln (u_exp q d k) + n * u_nu q d k * u_nu q d k * u_lxi q d k + - (2 * (u_s q d * (n * ln (u_exp q d k) * u_lxi q d k))) + 5 / 10 * (n * ln (u_exp q d k))
        + n * u_lxi q d k * (u_s q d * u_s q d - xi q d k * xi q d k) + - (5 / 10 * (n * (u_s q d + xi q d k))) + n * log1pexp_py (xi q d k)))%R).
    { unfold bouchard. rewrite Rplus_assoc, <- vsum_plus, Rmult_plus_distr_l, <- vsum_scale. f_equal. apply vsum_ext. intros k Hk. destruct (Hq d k Hd Hk) as (_ & P1 & P2 & ->).
      rewrite log1pexp_small by (split; [apply xi_pos; exact P1|exact P2]). field. }
    rewrite E2. rewrite !vsum_plus, !vsum_opp, !vsum_scale.
    unfold ms in E1. unfold Rminus in *. lra.
  Qed.
End reported.

(** One document with the first of two words, and two topics. *)
Definition words2 (a b : R) : mat := fun k t => if t =? 0 then (if k =? 0 then a else b) else (if k =? 0 then 1 - a else 1 - b)%R.
Definition first2 : mat := fun _ t => if t =? 0 then 1%R else 0%R.
Definition model2 (a b : R) : uyv := {| u_A := none; u_omA := eye; u_Y := none; u_omY := eye; u_sigY := eye; u_U := none; u_V := none; u_vocab := words2 a b |}.
Definition doc2 : uyv_query := {| u_exp := fun _ _ => 1%R; u_nu := fun _ _ => 1%R; u_lxi := fun _ _ => jaakkola (derive_xi (ln 1) 1 0); u_s := fun _ => 0%R |}.
Lemma queried2 : queried 2 1 doc2.
Proof.
  intros d k _ _. cbn [u_exp u_nu u_s u_lxi doc2]. split; [lra|]. split; [lra|]. split; [|reflexivity].
  rewrite ln_1. unfold derive_xi. replace (0 * 0 - 2 * 0 * 0 + 0 * 0 + 1 * 1)%R with (1 * 1)%R by ring. rewrite sqrt_square; lra.
Qed.
Lemma frequent2 a b : (1 / 100 <= a <= 99 / 100)%R -> (1 / 100 <= b <= 99 / 100)%R -> frequent 2 2 (1 / 100) (model2 a b).
Proof. intros Ha Hb k t _ _. cbn [u_vocab model2]. unfold words2. destruct (t =? 0), (k =? 0); lra. Qed.
Lemma first2_pos d t : d < 1 -> t < 2 -> (0 <= first2 d t)%R.
Proof. intros _ _. unfold first2. destruct (t =? 0); lra. Qed.
(** The words of both topics are distributions; the words are more likely under the first
    model, whose bound is larger, but the larger value is reported for the second. *)
Theorem C289_order_refuted ldet : exists K Q F P T D sigmaSq alphaSq kappaSq tauSq tiny W X s s' q, 0 < K /\ (0 < tiny)%R /\ (forall d t, d < D -> t < T -> (0 <= W d t)%R) /\
  frequent K T tiny s /\ frequent K T tiny s' /\ queried K D q /\ (forall k, k < K -> vsum T (u_vocab s k) = 1%R /\ vsum T (u_vocab s' k) = 1%R) /\
  u_A s' = u_A s /\ u_omA s' = u_omA s /\ u_Y s' = u_Y s /\ u_omY s' = u_omY s /\ u_sigY s' = u_sigY s /\ u_U s' = u_U s /\ u_V s' = u_V s /\
  (words_bound K T D W s' q < words_bound K T D W s q)%R /\
  (uyv_bound K Q F P T D sigmaSq alphaSq kappaSq tauSq tiny ldet W X s q < uyv_bound K Q F P T D sigmaSq alphaSq kappaSq tauSq tiny ldet W X s' q)%R.
Proof.
  exists 2, 1, 1, 1, 2, 1, 1%R, 1%R, 1%R, 1%R, (1 / 100)%R, first2, first2, (model2 (1 / 2) (1 / 2)), (model2 (3 / 4) (1 / 8)), doc2.
  assert (F1 : frequent 2 2 (1 / 100) (model2 (1 / 2) (1 / 2))) by (apply frequent2; lra). assert (F2 : frequent 2 2 (1 / 100) (model2 (3 / 4) (1 / 8))) by (apply frequent2; lra).
  split; [lia|]. split; [lra|]. split; [exact first2_pos|]. split; [exact F1|]. split; [exact F2|]. split; [exact queried2|].
  split. { intros k _. unfold vsum. cbn [seq map rsum u_vocab model2]. unfold words2. cbn [Nat.eqb]. destruct (k =? 0); lra. }
  do 7 (split; [reflexivity|]).
  assert (B : exists c, forall a b, (0 < a)%R -> (0 < b)%R -> words_bound 2 2 1 first2 (model2 a b) doc2 = (ln (a + b) + c)%R).
  { exists (- (vsum 2 (first2 0%nat) * (bouchard 2 0 (fun k => derive_xi (ln 1) 1 0) (fun k => ln 1) + vsum 2 (fun k => jaakkola (derive_xi (ln 1) 1 0) * (1 * 1)))))%R.
    intros a b Ha Hb. unfold words_bound. cbn [u_exp u_nu u_s doc2]. unfold vsum at 1. cbn [seq map rsum]. unfold vsum at 1. cbn [seq map rsum]. unfold first2 at 1 2. cbn [Nat.eqb]. unfold vsum at 1. cbn [seq map rsum u_vocab model2]. unfold words2 at 1 2. cbn [Nat.eqb].
    replace (1 * a + (1 * b + 0))%R with (a + b)%R by ring. ring. }
  destruct B as [c Hc].
  assert (L1 : ln (1 / 2 + 1 / 2) = 0%R) by (replace (1 / 2 + 1 / 2)%R with 1%R by field; apply ln_1).
  split. { rewrite !Hc by lra. rewrite L1. assert (ln (3 / 4 + 1 / 8) < ln 1)%R by (apply ln_increasing; lra). rewrite ln_1 in *. lra. }
  unfold uyv_bound. change (ub_rest 2 1 1 1 1 1 1 1 1 ldet first2 (model2 (1 / 2) (1 / 2)) doc2) with (ub_rest 2 1 1 1 1 1 1 1 1 ldet first2 (model2 (3 / 4) (1 / 8)) doc2).
  rewrite !(C289_words 2 2 1 (1 / 100) first2) by (try lia; try lra; try exact queried2; try exact first2_pos; assumption). rewrite !Hc by lra.
  assert (EN : forall a b, (0 < a)%R -> (0 < b)%R -> vsum 1 (fun d => vsum 2 (fun t => first2 d t * entropy 2 (model2 a b) doc2 d t))%R = (ln (a + b) - (a / (a + b) * ln a + b / (a + b) * ln b))%R).
  { intros a b Ha Hb. unfold vsum. cbn [seq map rsum]. unfold first2. cbn [Nat.eqb]. rewrite Rmult_0_l. unfold entropy, share, vsum. cbn [seq map rsum u_exp u_vocab doc2 model2]. unfold words2. cbn [Nat.eqb].
    replace (1 * a + (1 * b + 0))%R with (a + b)%R by ring. replace (1 * a / (a + b))%R with (a * / (a + b))%R by (field; lra). replace (1 * b / (a + b))%R with (b * / (a + b))%R by (field; lra).
    rewrite !ln_mult by (try apply Rinv_0_lt_compat; lra). rewrite ln_Rinv by lra. field. lra. }
  rewrite !EN by lra. rewrite L1.
  assert (E2 : ln (1 / 2) = (- ln 2)%R) by (unfold Rdiv; rewrite Rmult_1_l, ln_Rinv by lra; reflexivity).
  assert (E8 : ln (1 / 8) = (- (3 * ln 2))%R). { replace (1 / 8)%R with (/ (2 * (2 * 2)))%R by field. rewrite ln_Rinv, !ln_mult by lra. ring. }
  assert (E34 : ln (3 / 4) = (ln 3 - 2 * ln 2)%R). { replace (3 / 4)%R with (3 * / (2 * 2))%R by field. rewrite ln_mult, ln_Rinv, ln_mult by lra. ring. }
  rewrite E2, E8, E34. assert (E98 : (3 * ln 2 < 2 * ln 3)%R). { replace (3 * ln 2)%R with (ln (2 * (2 * 2))) by (rewrite !ln_mult by lra; ring). replace (2 * ln 3)%R with (ln (3 * 3)) by (rewrite ln_mult by lra; ring). apply ln_increasing; lra. }
  assert (L2 : (0 < ln 2)%R) by (rewrite <- ln_1; apply ln_increasing; lra).
  replace (1 / 2 / (1 / 2 + 1 / 2))%R with (1 / 2)%R by field. replace (3 / 4 / (3 / 4 + 1 / 8))%R with (6 / 7)%R by field. replace (1 / 8 / (3 / 4 + 1 / 8))%R with (1 / 7)%R by field.
  lra.
Qed.
Example C289_case : frequent 2 2 (1 / 100) (model2 (1 / 2) (1 / 2)) /\ queried 2 1 doc2 /\ entropy 2 (model2 (1 / 2) (1 / 2)) doc2 0 0 = ln 2.
Proof.
  split; [apply frequent2; lra|]. split; [exact queried2|]. unfold entropy, share, vsum. cbn [seq map rsum u_exp u_vocab doc2 model2]. unfold words2. cbn [Nat.eqb].
  replace (1 * (1 / 2) / (1 * (1 / 2) + (1 * (1 / 2) + 0)))%R with (/ 2)%R by field. rewrite ln_Rinv by lra. field.
Qed.

Print Assumptions C289_words.
Print Assumptions C289_order_refuted.
