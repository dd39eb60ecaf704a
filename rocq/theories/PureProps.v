(** * C295: training in pure Python *)
From Coq Require Import List Reals ZArith Arith Bool Lia Lra.
From Verif Require Import Base RealModel RealProofs VbModel VbProofs LinkModel LinkProps MomModel PureModel.
Import ListNotations.
Open Scope nat_scope.

(** Rows that are distributions. *)
Definition distribution (n : nat) (v : vec) : Prop := (forall i, i < n -> (0 < v i)%R) /\ vsum n v = 1%R.

Section proofs.
  Context (K T D : nat) (prior : vec) (beta a : R) (dig : R -> R) (doc : nat -> list nat).
  Context (HK : 0 < K) (HT : 0 < T) (HP : forall k, k < K -> (0 < prior k)%R) (HB : (0 < beta)%R).
  Notation docs := (pure_docs K T prior dig doc).
  Notation step := (pure_step K T D prior beta a dig doc).
  Notation loop := (pure_loop K T D prior beta a dig doc).

  Lemma over_sum_dist n (u : vec) : 0 < n -> (forall i, i < n -> (0 < u i)%R) -> distribution n (fun k => u k / vsum n u)%R.
  Proof.
    intros Hn Hu. assert (P : (0 < vsum n u)%R) by (apply vsum_pos; assumption). split.
    - intros i Hi. apply Rdiv_lt_0_compat; auto.
    - unfold Rdiv. rewrite vsum_scale_r. apply Rinv_r. lra.
  Qed.
  Lemma rsum_nonneg l : (forall x, In x l -> (0 <= x)%R) -> (0 <= rsum l)%R.
  Proof.
    induction l as [|x l IH]; intros H; cbn [rsum]; [lra|]. pose proof (H x (or_introl eq_refl)).
    assert (0 <= rsum l)%R by (apply IH; intros; apply H; right; assumption). lra.
  Qed.
  Lemma topics_dist lnw toks th : distribution K (topics_of K prior dig lnw toks th).
  Proof.
    unfold topics_of. cbv zeta. apply (over_sum_dist K (fun k => _)); [assumption|]. intros k Hk.
    assert (0 <= rsum (map (fun t => token K dig lnw th t k) toks))%R.
    { apply rsum_nonneg. intros x Hx. apply in_map_iff in Hx. destruct Hx as (t & <- & _). apply Rlt_le, vsoftmax_pos. assumption. }
    specialize (HP k Hk). lra.
  Qed.
  Lemma inner_is n : forall i lnw toks old prev th, i + n = 20 ->
    exists p t, inner K prior dig (S n) i lnw toks old prev th = (20, p, t) /\ (n <> 0 -> distribution K t).
  Proof.
    induction n as [|n IH]; intros i lnw toks old prev th H.
    - exists prev, th. split; [|intros E; exfalso; apply E; reflexivity]. replace i with 20 by lia. cbn [inner].
      change (20 <? max_inner) with false. rewrite andb_false_r. reflexivity.
    - cbn [inner]. replace (i <? max_inner) with true by (symmetry; apply Nat.ltb_lt; unfold max_inner; lia). cbn [orb andb].
      destruct (IH (S i) lnw toks old th (topics_of K prior dig lnw toks th)) as (p & t & E & Ht); [lia|].
      exists p, t. split; [exact E|]. intros _. destruct n; [|apply Ht; lia].
      cbn [inner] in E. replace (S i) with 20 in E by lia. change (20 <? max_inner) with false in E. rewrite andb_false_r in E.
      injection E; intros; subst. apply topics_dist.
  Qed.

  Definition positive (w : mat) : Prop := forall k t, t < T -> (0 < w k t)%R.
  Definition rows (w : mat) : Prop := forall k, distribution T (w k).
  Lemma rows_positive w : rows w -> positive w.
  Proof. intros H k t Ht. apply H. assumption. Qed.
  Lemma doc_is lnw d w tops total : positive w ->
    exists w' th, pure_doc K T prior dig doc lnw d (w, tops, total) = (w', set_row tops d th, total + 20) /\ rows w' /\ distribution K th.
  Proof.
    intros H. unfold pure_doc.
    destruct (inner_is max_inner 0 lnw (doc d) (tops d) (fun _ => 1 / INR K)%R (fun _ => 1 / INR K)%R eq_refl) as (p & th & E & Hd).
    rewrite E. eexists. exists th. split; [reflexivity|]. split; [|apply Hd; discriminate].
    intros k. apply (over_sum_dist T (add_tokens (token K dig lnw p) (doc d) w k)); [assumption|]. intros t Ht. unfold add_tokens.
    assert (0 <= rsum (map (fun t' => if t' =? t then token K dig lnw p t' k else 0%R) (doc d)))%R.
    { apply rsum_nonneg. intros x Hx. apply in_map_iff in Hx. destruct Hx as (t' & <- & _).
      destruct (t' =? t); [apply Rlt_le, vsoftmax_pos; assumption|lra]. }
    specialize (H k t Ht). lra.
  Qed.
  Lemma docs_is lnw ds : forall w tops total, positive w ->
    exists w' tops', docs lnw ds (w, tops, total) = (w', tops', total + 20 * List.length ds) /\
    (rows w \/ ds <> [] -> rows w') /\
    (forall d, In d ds \/ distribution K (tops d) -> distribution K (tops' d)).
  Proof.
    induction ds as [|d ds IH]; intros w tops total H.
    - exists w, tops. unfold pure_docs. cbn [fold_left List.length]. split; [f_equal; lia|]. split.
      + intros [G|G]; [exact G|exfalso; apply G; reflexivity].
      + intros d [[]|G]. exact G.
    - destruct (doc_is lnw d w tops total H) as (w1 & th & E & Hw & Hd). 
      change (docs lnw (d :: ds) (w, tops, total)) with (docs lnw ds (pure_doc K T prior dig doc lnw d (w, tops, total))). rewrite E.
      destruct (IH w1 (set_row tops d th) (total + 20) (rows_positive _ Hw)) as (w2 & t2 & E2 & Hw2 & Ht2).
      exists w2, t2. split; [refine (eq_trans E2 _); cbn [List.length]; f_equal; lia|]. split.
      + intros _. apply Hw2. left. exact Hw.
      + intros d' G. apply Ht2. unfold set_row. destruct (Nat.eqb_spec d' d); [right; assumption|].
        destruct G as [[G|G]|G]; [subst; contradiction|left; exact G|right; exact G].
  Qed.
  Lemma step_is old new tops total :
    exists w' tops', step (old, new, tops, total) = ((fun k t => safe_ln a (new k t)) : mat, w', tops', total + 20 * D) /\
    (0 < D -> rows w') /\ (forall d, d < D -> distribution K (tops' d)).
  Proof.
    unfold pure_step. cbv zeta.
    destruct (docs_is (fun k t => safe_ln a (new k t)) (seq 0 D) (fun _ _ => beta) tops total) as (w & t & E & Hw & Ht); [intros k t _; assumption|].
    rewrite E. exists w, t. rewrite seq_length. split; [reflexivity|]. split.
    - intros HD. apply Hw. right. destruct D; [lia|discriminate].
    - intros d Hd. apply Ht. left. apply in_seq. lia.
  Qed.
  Lemma loop_S n : forall s, loop (S n) s = step (loop n s).
  Proof. induction n as [|n IH]; intros s; [reflexivity|]. change (loop (S (S n)) s) with (loop (S n) (step s)). rewrite IH. reflexivity. Qed.
  Lemma loop_is n fresh words tops : exists o w t, loop n (fresh, words, tops, 0) = (o, w, t, 20 * D * n) /\
    (n = 0 -> w = words) /\ (n <> 0 -> (0 < D -> rows w) /\ (forall d, d < D -> distribution K (t d))) /\
    (forall m, n = S m -> exists o' w' t', loop m (fresh, words, tops, 0) = (o', w', t', 20 * D * m) /\ o = fun k t => safe_ln a (w' k t)).
  Proof.
    induction n as [|n (o & w & t & E & _)].
    - exists fresh, words, tops. split; [cbn [pure_loop]; f_equal; lia|]. split; [reflexivity|]. split; [intros G; exfalso; apply G; reflexivity|discriminate].
    - rewrite loop_S, E. destruct (step_is o w t (20 * D * n)) as (w' & t' & E' & Hw & Ht). rewrite E'.
      eexists. exists w', t'. split; [f_equal; lia|]. split; [discriminate|]. split; [intros _; split; assumption|].
      intros m Hm. injection Hm; intros <-. exists o, w, t. split; [exact E|reflexivity].
  Qed.

  (** ** C295 *)
  (** The number returned does not depend on anything but the sizes: every document has twenty
      inner iterations. *)
  Theorem C295_count n fresh words tops : snd (pure_iterate K T D prior beta a dig doc n fresh words tops) = 20 * D * n.
  Proof. unfold pure_iterate. destruct (loop_is n fresh words tops) as (o & w & t & E & _). rewrite E. reflexivity. Qed.
  (** After an iteration all documents have distributions over topics. *)
  Theorem C295_topics n fresh words tops d : 0 < n -> d < D ->
    distribution K (snd (fst (pure_iterate K T D prior beta a dig doc n fresh words tops)) d).
  Proof.
    intros Hn Hd. unfold pure_iterate. destruct (loop_is n fresh words tops) as (o & w & t & E & _ & H & _). rewrite E. cbn [fst snd].
    apply H; [lia|assumption].
  Qed.
  (** After an even number of iterations the caller's array has distributions over words. *)
  Theorem C295_even n fresh words tops k : 0 < n -> Nat.even n = true -> 0 < D ->
    distribution T (fst (fst (pure_iterate K T D prior beta a dig doc n fresh words tops)) k).
  Proof.
    intros Hn He Hd. unfold pure_iterate. destruct (loop_is n fresh words tops) as (o & w & t & E & _ & H & _). rewrite E, He. cbn [fst snd].
    apply H; [lia|assumption].
  Qed.
  (** After an odd number it has logarithms of probabilities, of the iteration before. *)
  Theorem C295_odd n fresh words tops k t : Nat.even n = false -> 0 < D -> t < T -> (0 < a <= 1)%R ->
    (forall k t, t < T -> (words k t <= 1)%R) ->
    (fst (fst (pure_iterate K T D prior beta a dig doc n fresh words tops)) k t <= 0)%R.
  Proof.
    intros He HD Ht Ha Hw. destruct n as [|m]; [discriminate|]. unfold pure_iterate.
    destruct (loop_is (S m) fresh words tops) as (o & w & tt & E & _ & _ & H). rewrite E, He. cbn [fst snd].
    destruct (H m eq_refl) as (o' & w' & t' & E' & ->).
    assert (W : (w' k t <= 1)%R).
    { destruct (loop_is m fresh words tops) as (o2 & w2 & t2 & E2 & Z & G & _). rewrite E2 in E'. injection E'; intros; subst.
      destruct m as [|m]; [rewrite Z by reflexivity; auto|]. destruct G as [G _]; [lia|]. destruct (G HD k) as [P S1].
      rewrite <- S1. apply vsum_in_le; [|assumption]. intros. apply Rlt_le, P. assumption. }
    unfold safe_ln. destruct (rleb a (w' k t)) eqn:L.
    - apply rleb_true in L. rewrite <- ln_1. destruct W as [W|W]; [apply Rlt_le, ln_increasing; lra|rewrite W; lra].
    - rewrite <- ln_1. destruct Ha as [P [Q|Q]]; [apply Rlt_le, ln_increasing; lra|rewrite Q; lra].
  Qed.
End proofs.

(** One iteration leaves no distributions in the caller's array. *)
Theorem C295_odd_refuted : exists K T D prior beta a dig doc fresh words tops,
  0 < K /\ 0 < T /\ 0 < D /\ (forall k, (0 < prior k)%R) /\ (0 < beta)%R /\ (0 < a <= 1)%R /\ (forall k, distribution T (words k)) /\
  forall k, ~ distribution T (fst (fst (pure_iterate K T D prior beta a dig doc 1 fresh words tops)) k).
Proof.
  exists 2, 2, 1, (fun _ => 1%R), 1%R, (1 / 100)%R, (fun x => x), (fun _ => [0; 1]), (fun _ _ => 0%R), (fun _ _ => (1 / 2)%R), (fun _ _ => 1%R).
  repeat split; try lia; try lra.
  - intros. lra.
  - intros i _. lra.
  - unfold vsum. cbn [seq map rsum]. lra.
  - intros k [P _]. specialize (P 0 ltac:(lia)).
    pose proof (C295_odd 2 2 1 (fun _ => 1%R) 1 (1 / 100) (fun x => x) (fun _ => [0; 1]) ltac:(lia) ltac:(lia) ltac:(intros; lra) ltac:(lra)
      1 (fun _ _ => 0%R) (fun _ _ => (1 / 2)%R) (fun _ _ => 1%R) k 0 eq_refl ltac:(lia) ltac:(lia) ltac:(lra) ltac:(intros; lra)). lra.
Qed.
(** With one topic and two documents of a word each, the order of the documents matters: the
    weights are divided by their sums after each document. *)
Lemma one_topic v : vsoftmax 1 v 0 = 1%R.
Proof. pose proof (vsoftmax_sum 1 v ltac:(lia)) as H. unfold vsum in H. cbn [seq map rsum] in H. lra. Qed.
Lemma one_doc prior dig doc lnw d t (s : mat * mat * nat) : doc d = [t] -> t < 2 ->
  let w := fst (fst s) in let w' := fst (fst (pure_doc 1 2 prior dig doc lnw d s)) in
  (0 < w 0%nat 0%nat /\ 0 < w 0%nat 1%nat)%R ->
  (0 < w' 0%nat 0%nat /\ 0 < w' 0%nat 1%nat)%R /\
  w' 0 0 = ((w 0%nat 0%nat + if (t =? 0)%nat then 1 else 0) / (w 0%nat 0%nat + w 0%nat 1%nat + 1))%R /\
  w' 0 1 = ((w 0%nat 1%nat + if (t =? 1)%nat then 1 else 0) / (w 0%nat 0%nat + w 0%nat 1%nat + 1))%R.
Proof.
  destruct s as [[w tops] total]. intros E Ht. cbn [fst]. cbv zeta. intros [P0 P1]. unfold pure_doc.
  destruct (inner _ _ _ _ _ _ _ _ _ _) as [[i p] th]. cbn [fst]. rewrite E.
  unfold rows_over_sums, add_tokens. cbn [map rsum]. unfold vsum. cbn [seq map rsum]. unfold token. rewrite !one_topic.
  assert (C : t = 0 \/ t = 1) by lia. destruct C as [-> | ->]; cbn [Nat.eqb].
  - assert (w 0%nat 0%nat + (1 + 0) + (w 0%nat 1%nat + (0 + 0) + 0) = w 0%nat 0%nat + w 0%nat 1%nat + 1)%R as -> by ring.
    repeat split; try (apply Rdiv_lt_0_compat; lra); f_equal; ring.
  - assert (w 0%nat 0%nat + (0 + 0) + (w 0%nat 1%nat + (1 + 0) + 0) = w 0%nat 0%nat + w 0%nat 1%nat + 1)%R as -> by ring.
    repeat split; try (apply Rdiv_lt_0_compat; lra); f_equal; ring.
Qed.
Lemma two_docs prior dig doc lnw tops total t0 t1 : doc 0 = [t0] -> doc 1 = [t1] -> t0 + t1 = 1 ->
  fst (fst (pure_docs 1 2 prior dig doc lnw (seq 0 2) ((fun _ _ => 1%R) : mat, tops, total))) 0 t1 = (2 / 3)%R.
Proof.
  intros E0 E1 H. unfold pure_docs. cbn [seq fold_left].
  set (s0 := (_, tops, total)).
  destruct (one_doc prior dig doc lnw 0 t0 s0 E0) as (P & A0 & A1); [lia|unfold s0; cbn [fst]; split; lra|].
  set (s1 := pure_doc 1 2 prior dig doc lnw 0 s0) in *.
  destruct (one_doc prior dig doc lnw 1 t1 s1 E1) as (_ & B0 & B1); [lia|exact P|].
  change (fst (fst s0) 0 0) with 1%R in *. change (fst (fst s0) 0 1) with 1%R in *. cbv zeta in *.
  assert (C : t0 = 0 /\ t1 = 1 \/ t0 = 1 /\ t1 = 0) by lia.
  destruct C as [[-> ->]|[-> ->]]; cbn [Nat.eqb] in *; [rewrite B1|rewrite B0]; rewrite A0, A1; field.
Qed.
Theorem C295_order_refuted : exists K T D prior beta a dig doc doc' fresh words tops,
  0 < K /\ 0 < T /\ D = 2 /\ (forall k, (0 < prior k)%R) /\ (0 < beta)%R /\ (0 < a <= 1)%R /\ (forall k, distribution T (words k)) /\
  doc' 0 = doc 1 /\ doc' 1 = doc 0 /\
  fst (fst (pure_iterate K T D prior beta a dig doc 2 fresh words tops)) 0 0
  <> fst (fst (pure_iterate K T D prior beta a dig doc' 2 fresh words tops)) 0 0.
Proof.
  exists 1, 2, 2, (fun _ => 1%R), 1%R, (1 / 100)%R, (fun x => x), (fun d => [d]), (fun d => [1 - d]), (fun _ _ => 0%R), (fun _ _ => (1 / 2)%R), (fun _ _ => 1%R).
  repeat split; try lia; try lra.
  - intros. lra.
  - intros i _. lra.
  - unfold vsum. cbn [seq map rsum]. lra.
  - assert (G : forall doc t0 t1, doc 0 = [t0] -> doc 1 = [t1] -> t0 + t1 = 1 ->
      fst (fst (pure_iterate 1 2 2 (fun _ => 1%R) 1 (1 / 100) (fun x => x) doc 2 (fun _ _ => 0%R) (fun _ _ => (1 / 2)%R) (fun _ _ => 1%R))) 0 t1 = (2 / 3)%R).
    { intros doc t0 t1 E0 E1 H. unfold pure_iterate. cbn [pure_loop Nat.even]. unfold pure_step at 2.
      destruct (pure_docs _ _ _ _ _ _ _ _) as [[w t] n]. unfold pure_step.
      pose proof (two_docs (fun _ => 1%R) (fun x => x) doc (fun k t => safe_ln (1 / 100) (w k t)) t n t0 t1 E0 E1 H) as R.
      destruct (pure_docs _ _ _ _ _ _ _ _) as [[w' t'] n']. exact R. }
    pose proof (G (fun d => [1 - d]) 1 0 eq_refl eq_refl eq_refl) as A. rewrite A.
    pose proof (G (fun d => [d]) 0 1 eq_refl eq_refl eq_refl) as B.
    destruct (C295_even 1 2 2 (fun _ => 1%R) 1 (1 / 100) (fun x => x) (fun d => [d]) ltac:(lia) ltac:(lia) ltac:(intros; lra) ltac:(lra)
      2 (fun _ _ => 0%R) (fun _ _ => (1 / 2)%R) (fun _ _ => 1%R) 0 ltac:(lia) eq_refl ltac:(lia)) as [_ S1].
    unfold vsum in S1. cbn [seq map rsum] in S1. rewrite B in S1. lra.
Qed.
(** Three topics, five words and four documents. *)
Example C295_case : snd (pure_iterate 3 5 4 (fun _ => 1%R) 1 (1 / 100) (fun x => x) (fun d => [d; d; 0]) 10 (fun _ _ => 0%R) (fun _ _ => (1 / 5)%R) (fun _ _ => 1%R)) = 800.
Proof. rewrite C295_count; [reflexivity|lia|lia|intros; lra|lra]. Qed.

Print Assumptions C295_count.
Print Assumptions C295_topics.
Print Assumptions C295_even.
Print Assumptions C295_odd.
Print Assumptions C295_odd_refuted.
Print Assumptions C295_order_refuted.
