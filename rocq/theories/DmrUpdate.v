(** * C209: updating the weights of Dirichlet-multinomial regression
    (/repo/sidetopics/model/dmr.py lines 231-246) *)
From Coq Require Import List Reals QArith Qreals ZArith Arith Bool Lra Lia Psatz.
From Verif Require Import Base EvalSpec RealModel RealProofs MixModel MixProofs VbModel VbProofs BoundSpec DmrReal.
Import ListNotations.
Open Scope nat_scope.

(** ** Model *)
(** Lines 232-246 [updateWeights].  [opt k start W] is the vector found by
    scipy.optimize.minimize for topic [k] (line 236), [None] if it contains NaNs or
    infinities (lines 238-241).  The optimiser starts at the topic's row of new_weights,
    and the objective takes the rows of all other topics from old_weights, which change
    only at line 246. *)
Section Update.
  Context (K : nat) (opt : nat -> (nat -> R) -> (nat -> nat -> R) -> option (nat -> R)).
  Definition update_topic (old new : nat -> nat -> R) (k : nat) : nat -> nat -> R :=
    match opt k (new k) old with Some row => with_row new k row | None => new end.
  Definition update_weights (old : nat -> nat -> R) : nat -> nat -> R :=
    fold_left (update_topic old) (seq 0 K) old.
End Update.

(** ** Proofs *)
Lemma update_untouched opt old ks new j : ~ In j ks -> fold_left (update_topic opt old) ks new j = new j.
Proof.
  revert new. induction ks as [|k ks IH]; intros new H; [reflexivity|]. cbn [fold_left]. rewrite IH by (intros C; apply H; right; exact C).
  unfold update_topic. destruct (opt k (new k) old); [|reflexivity]. unfold with_row.
  destruct (Nat.eqb_spec j k) as [->|]; [destruct H; left; reflexivity|reflexivity].
Qed.
Lemma update_row K opt old k : k < K ->
  update_weights K opt old k = match opt k (old k) old with Some row => row | None => old k end.
Proof.
  intros Hk. unfold update_weights. replace K with (k + S (K - S k)) by lia. rewrite seq_app, fold_left_app. cbn [seq fold_left].
  rewrite update_untouched by (rewrite in_seq; lia). cbn [Nat.add].
  set (before := fold_left _ _ _). assert (E : before k = old k) by (apply update_untouched; rewrite in_seq; lia).
  unfold update_topic. rewrite E. destruct (opt k (old k) old) as [row|]; [|exact E].
  unfold with_row. rewrite Nat.eqb_refl. reflexivity.
Qed.
Lemma update_beyond K opt old k : K <= k -> update_weights K opt old k = old k.
Proof. intros Hk. apply update_untouched. rewrite in_seq. lia. Qed.
Lemma posterior_ext lnG D K F X n S0 sigma W W' : (forall j f, j < K -> f < F -> W j f = W' j f) ->
  posterior lnG D K F X n S0 sigma W = posterior lnG D K F X n S0 sigma W'.
Proof.
  intros E. unfold posterior.
  assert (EX : forall d j, j < K -> exp (vsum F (fun f => X d f * W j f)%R) = exp (vsum F (fun f => X d f * W' j f)%R)).
  { intros d j Hj. f_equal. apply vsum_ext. intros f Hf. rewrite E by assumption. reflexivity. }
  f_equal.
  - f_equal. apply vsum_ext. intros i _. apply vsum_ext. intros d _. unfold doc_likelihood. cbv zeta.
    rewrite (vsum_ext K _ (fun j => exp (vsum F (fun f => X d f * W' j f)%R))) by (intros; apply EX; assumption).
    f_equal. apply vsum_ext. intros j Hj. rewrite (EX d j Hj). reflexivity.
  - f_equal. apply vsum_ext. intros j Hj. apply vsum_ext. intros f Hf. rewrite E by assumption. reflexivity.
Qed.

(** ** C209 *)
(** The optimiser never returns a vector whose objective is above that of its start. *)
Definition never_worse (obj : (nat -> R) -> nat -> (nat -> nat -> R) -> R) (opt : nat -> (nat -> R) -> (nat -> nat -> R) -> option (nat -> R)) (K : nat) (W : nat -> nat -> R) : Prop :=
  forall k row, k < K -> opt k (W k) W = Some row -> (obj row k W <= obj (W k) k W)%R.
(** It returns a global minimum. *)
Definition finds_minimum (obj : (nat -> R) -> nat -> (nat -> nat -> R) -> R) (opt : nat -> (nat -> R) -> (nat -> nat -> R) -> option (nat -> R)) (K : nat) (W : nat -> nat -> R) : Prop :=
  forall k, k < K -> exists row, opt k (W k) W = Some row /\ forall other, (obj row k W <= obj other k W)%R.

(** The new weights of each topic do not make the weights of all topics less probable if
    no other topic's change. *)
Theorem C209_each_topic_alone lnG D K F X n B S0 sigma opt W k :
  0 < B -> 0 < S0 -> sigma <> 0%R -> k < K ->
  never_worse (objective lnG D K F X n B S0 S0 sigma) opt K W ->
  let post := posterior lnG D K F X n S0 sigma in
  (post W <= post (with_row W k (update_weights K opt W k)))%R.
Proof.
  intros HB HS Hsig Hk N post. rewrite update_row by exact Hk.
  assert (E0 : post W = post (with_row W k (W k))).
  { apply posterior_ext. intros j f _ _. unfold with_row. destruct (Nat.eqb_spec j k) as [->|]; reflexivity. }
  destruct (opt k (W k) W) as [row|] eqn:E; [|rewrite E0; apply Rle_refl].
  pose proof (N k row Hk E) as H.
  pose proof (C130_objective_is_posterior lnG D K F X n B S0 sigma k W row (W k) HB HS Hsig Hk) as P. cbv zeta in P. fold post in P. lra.
Qed.
(** So with one topic whose weights change the update is an improvement. *)
Theorem C209_one_topic_improves lnG D K F X n B S0 sigma opt W k :
  0 < B -> 0 < S0 -> sigma <> 0%R -> k < K ->
  never_worse (objective lnG D K F X n B S0 S0 sigma) opt K W ->
  (forall j, j < K -> j <> k -> opt j (W j) W = None \/ opt j (W j) W = Some (W j)) ->
  let post := posterior lnG D K F X n S0 sigma in
  (post W <= post (update_weights K opt W))%R.
Proof.
  intros HB HS Hsig Hk N O post. eapply Rle_trans; [apply (C209_each_topic_alone lnG D K F X n B S0 sigma opt W k); assumption|].
  apply Req_le. apply posterior_ext. intros j f Hj _. unfold with_row. destruct (Nat.eqb_spec j k) as [->|Hn]; [reflexivity|].
  rewrite update_row by exact Hj. destruct (O j Hj Hn) as [E|E]; rewrite E; reflexivity.
Qed.

(** *** The refutation *)
Section Witness.
  Local Open Scope R_scope.
  Context (g : R -> R).
  Hypothesis G : gamma_like g.
  (** One document, with one feature, 1000; two of its tokens are of the first topic and
      one is of the second. *)
  Definition wx : nat -> nat -> R := fun _ _ => 1000.
  Definition wn : nat -> nat -> nat -> R := fun _ j _ => if (j =? 0)%nat then 2 else 1.
  Definition wW (a b : R) : nat -> nat -> R := fun j _ => if (j =? 0)%nat then a else b.
  Definition P (x y : R) : R := x * (x + 1) * y / ((x + y) * (x + y + 1) * (x + y + 2)).
  (** The posterior, not in logarithms. *)
  Definition dens (a b : R) : R := P (exp (1000 * a)) (exp (1000 * b)) * exp (- 50 * (a * a + b * b)).
  Notation post := (posterior g 1 2 1 wx wn 1 (1 / 100)).

  Lemma P_pos x y : 0 < x -> 0 < y -> 0 < P x y.
  Proof. intros Hx Hy. unfold P. apply Rdiv_lt_0_compat; repeat apply Rmult_lt_0_compat; lra. Qed.
  Lemma dens_pos a b : 0 < dens a b.
  Proof. apply Rmult_lt_0_compat; [apply P_pos|]; apply exp_pos. Qed.
  Lemma post_dens W : post W = ln (dens (W 0%nat 0%nat) (W 1%nat 0%nat)).
  Proof.
    unfold dens. set (a := W 0%nat 0%nat). set (b := W 1%nat 0%nat). pose proof (exp_pos (1000 * a)) as Hx. pose proof (exp_pos (1000 * b)) as Hy.
    rewrite ln_mult by (try apply P_pos; try apply exp_pos; assumption). rewrite ln_exp.
    unfold posterior, doc_likelihood, vsum, rsum, wx, wn. cbn [seq map fold_right Nat.eqb INR]. fold a b.
    rewrite !Rplus_0_r. set (x := exp (1000 * a)) in *. set (y := exp (1000 * b)) in *. clearbody x y.
    unfold P. unfold Rdiv at 4. rewrite ln_mult, ln_Rinv, !ln_mult by (try apply Rinv_0_lt_compat; repeat apply Rmult_lt_0_compat; lra).
    replace (x + y + (2 + 1)) with (x + y + 1 + 1 + 1) by ring. replace (x + 2) with (x + 1 + 1) by ring.
    rewrite !G by lra. replace (x + y + 1 + 1) with (x + y + 2) by ring. field.
  Qed.
  Lemma with_row_0 a b row : post (with_row (wW a b) 0 row) = ln (dens (row 0%nat) b).
  Proof. rewrite post_dens. reflexivity. Qed.
  Lemma with_row_1 a b row : post (with_row (wW a b) 1 row) = ln (dens a (row 0%nat)).
  Proof. rewrite post_dens. reflexivity. Qed.

  Lemma P_le_1 x y : 0 < x -> 0 < y -> P x y <= 1.
  Proof.
    intros Hx Hy. unfold P. assert (H : 0 < (x + y) * (x + y + 1) * (x + y + 2)) by (repeat apply Rmult_lt_0_compat; lra).
    apply (Rmult_le_reg_r _ _ _ H). unfold Rdiv. rewrite Rmult_assoc, Rinv_l, Rmult_1_r, Rmult_1_l by lra.
    apply Rmult_le_compat; [apply Rmult_le_pos; lra|lra| |lra]. apply Rmult_le_compat; lra.
  Qed.
  Lemma dens_le a b : dens a b <= exp (- 50 * (a * a + b * b)).
  Proof.
    unfold dens. rewrite <- (Rmult_1_l (exp (-50 * _))) at 2. apply Rmult_le_compat_r; [left; apply exp_pos|]. apply P_le_1; apply exp_pos.
  Qed.
  Lemma exp_mono x y : x <= y -> exp x <= exp y.
  Proof. intros [H| ->]; [left; apply exp_increasing, H|apply Rle_refl]. Qed.

  Lemma ln_mono x y : 0 < x -> x <= y -> ln x <= ln y.
  Proof. intros Hx [H| ->]; [left; apply ln_increasing; assumption|apply Rle_refl]. Qed.

  (** The greatest density along a line is reached. *)
  Lemma line_max (f : R -> R) M : 0 < M -> (forall x, continuity_pt f x) -> (forall x, M <= Rabs x -> f x <= f 0) ->
    exists m, forall x, f x <= f m.
  Proof.
    intros HM C O. destruct (continuity_ab_maj f (- M) M ltac:(lra) (fun x _ => C x)) as (m & Hm & _).
    exists m. intros x. destruct (Rle_or_lt M (Rabs x)) as [H|H].
    - eapply Rle_trans; [apply O, H|]. apply Hm. lra.
    - apply Hm. apply Rabs_def2 in H. lra.
  Qed.
  Lemma dens_continuous_0 b x : continuity_pt (fun a => dens a b) x.
  Proof.
    unfold dens, P. pose proof (exp_pos (1000 * x)). pose proof (exp_pos (1000 * b)). set (y := exp (1000 * b)) in *. clearbody y.
    reg. unfold plus_fct, mult_fct, fct_cte, id, comp. repeat apply Rmult_integral_contrapositive_currified; lra.
  Qed.
  Lemma dens_continuous_1 a x : continuity_pt (fun b => dens a b) x.
  Proof.
    unfold dens, P. pose proof (exp_pos (1000 * x)). pose proof (exp_pos (1000 * a)). set (y := exp (1000 * a)) in *. clearbody y.
    reg. unfold plus_fct, mult_fct, fct_cte, id, comp. repeat apply Rmult_integral_contrapositive_currified; lra.
  Qed.

  Definition w0 : R := 15 / 1000.
  Definition r0 : R := exp 15.
  Lemma r0_exp : exp (1000 * w0) = r0. Proof. unfold r0, w0. f_equal. lra. Qed.
  Lemma exp_0_exp : exp (1000 * 0) = 1. Proof. rewrite Rmult_0_r. apply exp_0. Qed.
  Lemma r0_big : 32768 <= r0.
  Proof.
    unfold r0. replace 15 with (1 + 1 + 1 + (1 + 1 + 1) + (1 + 1 + 1) + (1 + 1 + 1) + (1 + 1 + 1)) by ring. rewrite !exp_plus.
    assert (H : 2 <= exp 1) by (pose proof (exp_ineq1 1 ltac:(lra)); lra).
    assert (H2 : 8 <= exp 1 * exp 1 * exp 1) by nra. set (e := exp 1 * exp 1 * exp 1) in *. clearbody e.
    assert (H3 : 64 <= e * e) by nra. assert (H4 : 512 <= e * e * e) by nra. assert (H5 : 4096 <= e * e * e * e) by nra. nra.
  Qed.
  Lemma r0_small : r0 <= 43046721.
  Proof.
    unfold r0. pose proof exp_le_3 as H. pose proof (exp_pos 1) as H0. apply Rle_trans with (exp 16); [apply exp_mono; lra|].
    replace 16 with (1 + 1 + (1 + 1) + (1 + 1 + (1 + 1)) + ((1 + 1 + (1 + 1)) + (1 + 1 + (1 + 1)))) by ring. rewrite !exp_plus.
    assert (A : 0 < exp 1 * exp 1 <= 9) by nra. set (e2 := exp 1 * exp 1) in *. clearbody e2.
    assert (B : 0 < e2 * e2 <= 81) by nra. set (e4 := e2 * e2) in *. clearbody e4.
    assert (C : 0 < e4 * e4 <= 6561) by nra. set (e8 := e4 * e4) in *. clearbody e8. nra.
  Qed.
  Lemma exp_far x : 10 <= Rabs x -> exp (- 50 * (x * x)) <= / 100000000000.
  Proof.
    intros H. assert (HX : 100 <= x * x) by (assert (E : x * x = Rabs x * Rabs x) by (unfold Rabs; destruct (Rcase_abs x); ring); nra).
    apply Rle_trans with (exp (- (1250 + 1250 + (1250 + 1250)))); [apply exp_mono; lra|].
    rewrite exp_Ropp. apply Rinv_le_contravar; [lra|]. rewrite !exp_plus.
    pose proof (exp_ineq1 1250 ltac:(lra)) as E. set (e := exp 1250) in *. clearbody e.
    assert (A : 1562500 <= e * e) by nra. nra.
  Qed.
  Lemma min_0 : exists a, forall x, dens x 0 <= dens a 0.
  Proof.
    apply (line_max (fun x => dens x 0) 10 ltac:(lra) (dens_continuous_0 0)). intros x Hx.
    eapply Rle_trans; [apply dens_le|]. replace (x * x + 0 * 0) with (x * x) by ring. eapply Rle_trans; [apply exp_far, Hx|].
    unfold dens, P. rewrite exp_0_exp. replace (-50 * (0 * 0 + 0 * 0)) with 0 by ring. rewrite exp_0. lra.
  Qed.
  Lemma dens_w0_0 : dens w0 0 = r0 / ((r0 + 2) * (r0 + 3)) * exp (- 50 * (w0 * w0)).
  Proof.
    unfold dens, P. rewrite exp_0_exp, r0_exp. replace (w0 * w0 + 0 * 0) with (w0 * w0) by ring. f_equal. pose proof r0_big. field. repeat split; lra.
  Qed.
  Lemma prior_w0 : 98 / 100 <= exp (- 50 * (w0 * w0)).
  Proof. pose proof (exp_ineq1_le (- 50 * (w0 * w0))). unfold w0 in *. lra. Qed.
  Lemma start_big : 97 / 100 / (r0 + 5) <= dens w0 0.
  Proof.
    rewrite dens_w0_0. pose proof r0_big. pose proof prior_w0 as Hp. set (e := exp _) in *. clearbody e.
    assert (A : 99 / 100 / (r0 + 5) <= r0 / ((r0 + 2) * (r0 + 3))).
    { apply (Rmult_le_reg_r ((r0 + 5) * ((r0 + 2) * (r0 + 3)))); [repeat apply Rmult_lt_0_compat; lra|].
      replace (99 / 100 / (r0 + 5) * ((r0 + 5) * ((r0 + 2) * (r0 + 3)))) with (99 / 100 * ((r0 + 2) * (r0 + 3))) by (field; lra).
      replace (r0 / ((r0 + 2) * (r0 + 3)) * ((r0 + 5) * ((r0 + 2) * (r0 + 3)))) with (r0 * (r0 + 5)) by (field; lra). nra. }
    assert (B : 0 < / (r0 + 5)) by (apply Rinv_0_lt_compat; lra). unfold Rdiv in *. nra.
  Qed.
  Lemma min_1 : exists b, forall x, dens w0 x <= dens w0 b.
  Proof.
    apply (line_max (fun x => dens w0 x) 10 ltac:(lra) (dens_continuous_1 w0)). intros x Hx.
    eapply Rle_trans; [apply dens_le|]. apply Rle_trans with (exp (- 50 * (x * x))); [apply exp_mono; pose proof (Rle_0_sqr w0); unfold Rsqr in *; lra|].
    eapply Rle_trans; [apply exp_far, Hx|]. eapply Rle_trans; [|apply start_big]. pose proof r0_big. pose proof r0_small.
    apply (Rmult_le_reg_r (r0 + 5)); [lra|]. replace (97 / 100 / (r0 + 5) * (r0 + 5)) with (97 / 100) by (field; lra). lra.
  Qed.
  (** With the second topic's weight 0, the best weight of the first makes its prior at
      most 7. *)
  Lemma best_0 a : (forall x, dens x 0 <= dens a 0) -> exp (1000 * a) <= 7.
  Proof.
    intros H. specialize (H 0). assert (E0 : dens 0 0 = / 12).
    { unfold dens, P. rewrite exp_0_exp. replace (-50 * (0 * 0 + 0 * 0)) with 0 by ring. rewrite exp_0. field. }
    rewrite E0 in H. unfold dens in H. rewrite exp_0_exp in H.
    pose proof (exp_pos (1000 * a)) as Hx. set (x := exp (1000 * a)) in *. clearbody x.
    assert (L : exp (-50 * (a * a + 0 * 0)) <= 1) by (rewrite <- exp_0; apply exp_mono; pose proof (Rle_0_sqr a); unfold Rsqr in *; lra).
    set (e := exp (-50 * (a * a + 0 * 0))) in *. pose proof (P_pos x 1 Hx ltac:(lra)) as Pp. clearbody e.
    assert (H1 : / 12 <= P x 1) by nra.
    assert (E : P x 1 = x / ((x + 2) * (x + 3))) by (unfold P; field; repeat split; lra). rewrite E in H1.
    assert (Q : (x + 2) * (x + 3) <= 12 * x).
    { apply (Rmult_le_compat_r ((x + 2) * (x + 3))) in H1; [|apply Rmult_le_pos; lra].
      replace (x / ((x + 2) * (x + 3)) * ((x + 2) * (x + 3))) with x in H1 by (field; split; lra). lra. }
    nra.
  Qed.
  (** With the first topic's weight 0.015, the best weight of the second makes its prior
      more than a tenth of the first's. *)
  Lemma best_1 b : (forall x, dens w0 x <= dens w0 b) -> r0 / 10 <= exp (1000 * b).
  Proof.
    intros H. specialize (H w0). unfold dens in H. rewrite r0_exp in H.
    pose proof (exp_pos (1000 * b)) as Hy. set (y := exp (1000 * b)) in *. clearbody y. pose proof r0_big as R0.
    assert (L : exp (-50 * (w0 * w0 + b * b)) <= 1).
    { rewrite <- exp_0. apply exp_mono. pose proof (Rle_0_sqr b). pose proof (Rle_0_sqr w0). unfold Rsqr in *. lra. }
    pose proof (exp_pos (-50 * (w0 * w0 + b * b))) as Le. set (e := exp (-50 * (w0 * w0 + b * b))) in *. clearbody e.
    assert (L0 : 97 / 100 <= exp (-50 * (w0 * w0 + w0 * w0))) by (pose proof (exp_ineq1_le (-50 * (w0 * w0 + w0 * w0))); unfold w0 in *; lra).
    set (e0 := exp (-50 * (w0 * w0 + w0 * w0))) in *. clearbody e0.
    pose proof (P_pos r0 y ltac:(lra) Hy) as P1. pose proof (P_pos r0 r0 ltac:(lra) ltac:(lra)) as P2.
    assert (H1 : 97 / 100 * P r0 r0 <= P r0 y) by nra.
    assert (E : P r0 r0 = r0 / (4 * (2 * r0 + 1))) by (unfold P; field; repeat split; lra).
    assert (E2 : 124 / 1000 <= P r0 r0).
    { rewrite E. apply (Rmult_le_reg_r (4 * (2 * r0 + 1))); [lra|]. replace (r0 / (4 * (2 * r0 + 1)) * (4 * (2 * r0 + 1))) with r0 by (field; lra). lra. }
    assert (E3 : P r0 y <= y / (r0 + 2)).
    { unfold P. replace (y / (r0 + 2)) with (r0 * (r0 + 1) * y / (r0 * (r0 + 1) * (r0 + 2))) by (field; repeat split; lra).
      apply Rmult_le_compat_l; [repeat apply Rmult_le_pos; lra|]. apply Rinv_le_contravar; [repeat apply Rmult_lt_0_compat; lra|].
      apply Rmult_le_compat; [apply Rmult_le_pos; lra|lra| |lra]. apply Rmult_le_compat; lra. }
    assert (E4 : 12 / 100 <= y / (r0 + 2)) by lra.
    apply (Rmult_le_compat_r (r0 + 2)) in E4; [|lra]. replace (y / (r0 + 2) * (r0 + 2)) with y in E4 by (field; lra). lra.
  Qed.
  Lemma both_small x y a b : x = exp (1000 * a) -> y = exp (1000 * b) -> x <= 7 -> r0 / 10 <= y -> dens a b < dens w0 0.
  Proof.
    intros Ex Ey Hx Hy. eapply Rlt_le_trans; [|apply start_big]. pose proof r0_big as R0. pose proof (exp_pos (1000 * a)) as X0. rewrite <- Ex in X0.
    unfold dens. rewrite <- Ex, <- Ey.
    assert (L : exp (-50 * (a * a + b * b)) <= 1).
    { rewrite <- exp_0. apply exp_mono. pose proof (Rle_0_sqr a). pose proof (Rle_0_sqr b). unfold Rsqr in *. lra. }
    pose proof (exp_pos (-50 * (a * a + b * b))) as Le. set (e := exp (-50 * (a * a + b * b))) in *. clearbody e.
    pose proof (P_pos x y X0 ltac:(lra)) as P1. apply Rle_lt_trans with (P x y); [nra|].
    apply Rle_lt_trans with (56 / (y * y)).
    { unfold P. replace (56 / (y * y)) with (7 * (7 + 1) * y / (y * y * y)) by (field; lra).
      unfold Rdiv. apply Rmult_le_compat; [repeat apply Rmult_le_pos; lra|left; apply Rinv_0_lt_compat; repeat apply Rmult_lt_0_compat; lra| |].
      - apply Rmult_le_compat_r; [lra|]. apply Rmult_le_compat; lra.
      - apply Rinv_le_contravar; [repeat apply Rmult_lt_0_compat; lra|]. apply Rmult_le_compat; [apply Rmult_le_pos; lra|lra| |lra]. apply Rmult_le_compat; lra. }
    apply Rle_lt_trans with (5600 / (r0 * r0)).
    { replace (5600 / (r0 * r0)) with (56 * / (r0 / 10 * (r0 / 10))) by (field; lra). apply Rmult_le_compat_l; [lra|].
      apply Rinv_le_contravar; [nra|]. apply Rmult_le_compat; lra. }
    apply (Rmult_lt_reg_r (r0 * r0 * (r0 + 5))); [repeat apply Rmult_lt_0_compat; lra|].
    replace (5600 / (r0 * r0) * (r0 * r0 * (r0 + 5))) with (5600 * (r0 + 5)) by (field; lra).
    replace (97 / 100 / (r0 + 5) * (r0 * r0 * (r0 + 5))) with (97 / 100 * (r0 * r0)) by (field; lra). nra.
  Qed.
End Witness.

(** Refuted for all topics at once: even with the best weights of each topic, given the
    old weights of the others, the new weights can be less probable than the old. *)
Theorem C209_raises_posterior_refuted : forall lnG, gamma_like lnG ->
  exists D K F X n opt W, (forall d k i, (0 <= n d k i)%R) /\
    (forall B, 0 < B -> finds_minimum (objective lnG D K F X n B 1 1 (1 / 100)) opt K W) /\
    let post := posterior lnG D K F X n 1 (1 / 100) in (post (update_weights K opt W) < post W)%R.
Proof.
  intros g G. destruct min_0 as (a & Ha). destruct min_1 as (b & Hb).
  set (opt := fun (k : nat) (_ : nat -> R) (_ : nat -> nat -> R) => Some (fun _ : nat => if k =? 0 then a else b)).
  exists 1, 2, 1, wx, wn, opt, (wW w0 0). split; [intros d k i; unfold wn; destruct (k =? 0); lra|]. split.
  - intros B HB k Hk. unfold opt. eexists. split; [reflexivity|]. intros other.
    pose proof (C130_objective_is_posterior g 1 2 1 wx wn B 1 (1 / 100) k (wW w0 0) (fun _ => if k =? 0 then a else b) other HB ltac:(lia) ltac:(lra) Hk) as E.
    cbv zeta in E. enough (posterior g 1 2 1 wx wn 1 (1 / 100) (with_row (wW w0 0) k other) <= posterior g 1 2 1 wx wn 1 (1 / 100) (with_row (wW w0 0) k (fun _ => if k =? 0 then a else b)))%R by lra.
    destruct k as [|[|k]]; [| |lia].
    + rewrite !with_row_0 by exact G. cbn [Nat.eqb]. apply ln_mono; [apply dens_pos|apply Ha].
    + rewrite !with_row_1 by exact G. cbn [Nat.eqb]. apply ln_mono; [apply dens_pos|apply Hb].
  - cbv zeta. rewrite !post_dens by exact G. rewrite !update_row by lia. unfold opt, wW. cbn [Nat.eqb].
    apply ln_increasing; [apply dens_pos|]. eapply both_small; [reflexivity|reflexivity|apply best_0, Ha|apply best_1, Hb].
Qed.

(** ** Example *)
(** Weights of three topics; the optimiser fails for the second. *)
Example C209_case :
  let opt := fun k (start : nat -> R) (_ : nat -> nat -> R) => if k =? 1 then None else Some (fun f => start f + 1)%R in
  let W := fun k f => INR (k + f) in
  map (fun k => update_weights 3 opt W k 0) [0; 1; 2; 3] = [(INR 0 + 1)%R; INR 1; (INR 2 + 1)%R; INR 3].
Proof. reflexivity. Qed.

Print Assumptions C209_each_topic_alone.
Print Assumptions C209_one_topic_improves.
Print Assumptions C209_raises_posterior_refuted.
