(** * Properties C284-C285: the side topic model of old/sidetopic_uy.py *)
From Coq Require Import List Reals ZArith Arith Bool Lra Lia.
From Verif Require Import Base RealModel RealProofs VbModel VbProofs LinkModel LinkProps CtmModel CtmProofs CtmProps StmProofs StmProps MtmModel MtmProofs
  MtmProps BouchModel BouchProofs BouchProps VecyProofs UyvModel UyvProofs OldModel OldProofs OldProps UyModel.
Import ListNotations.
Open Scope nat_scope.

Lemma vsum_sq_nonneg n (f : vec) : (0 <= vsum n (fun i => f i * f i))%R.
Proof. apply vsum_nonneg. intros i _. pose proof (Rle_0_sqr (f i)) as H. unfold Rsqr in H. exact H. Qed.
Lemma outer_psd n m (G : mat) c : (0 <= c)%R -> psd n (fun i j => c * vsum m (fun p => G i p * G j p))%R.
Proof.
  intros Hc x. rewrite quad_scale, quad_gram. apply Rmult_le_pos; [exact Hc|]. apply vsum_sq_nonneg.
Qed.
Lemma inv_nonneg n : (0 <= 1 / INR n)%R.
Proof. destruct n as [|n]; [cbn; unfold Rdiv; rewrite Rinv_0; lra|]. left. apply Rdiv_lt_0_compat; [lra|]. apply lt_0_INR. lia. Qed.

Section uy.
  Variables (K F T P D : nat) (inv : nat -> mat -> option mat) (X : mat).

  (** The costs that the iterations are said to minimise: of the map from features to topics
      and the low-rank map, given the means of the topics of the documents. *)
  Definition uy_misfit (A Y U : mat) : R :=
    vsum K (fun k => vsum F (fun f => (A k f - vsum P (fun p => U f p * Y k p)) * (A k f - vsum P (fun p => U f p * Y k p))))%R.
  Definition uy_residual (lmda A : mat) : R :=
    vsum K (fun k => vsum D (fun d => (lmda d k - vsum F (fun f => X d f * A k f)) * (lmda d k - vsum F (fun f => X d f * A k f))))%R.
  Definition uy_cost (featVar lowFeatVar : R) (lmda A Y U : mat) : R :=
    (uy_residual lmda A + 1 / featVar * uy_misfit A Y U + 1 / lowFeatVar * squares K P Y)%R.

  Record uy_setting : Prop := { us_K : 0 < K; us_D : 0 < D; us_inv : correct_inv inv; us_P : invertible inv P; us_F : invertible inv F }.
  (** Variances that are positive and a covariance of the topics that is one. *)
  Definition uy_good (m : uy) : Prop := (0 < y_featVar m)%R /\ (0 < y_lowFeatVar m)%R /\ symm K (y_sigT m) /\ posdef K (y_sigT m).

  Lemma sigT_good lmda A U Y : 0 < D -> symm K (uy_sigT F P D X lmda (fun _ _ => 1%R) A U Y) /\ posdef K (uy_sigT F P D X lmda (fun _ _ => 1%R) A U Y).
  Proof.
    intros HD. split.
    - intros i j _ _. unfold uy_sigT. rewrite (Nat.eqb_sym j i). f_equal. f_equal; [f_equal|]; f_equal; apply vsum_ext; intros; ring.
    - intros x Hx. set (A_diff := fun k f => (A k f - vsum P (fun p => Y k p * U f p))%R). set (diff := fun k d => (lmda d k - vsum F (fun f => X d f * A k f))%R).
      rewrite (quad_ext K _ (fun i j => (1 / INR P * vsum P (fun p => Y i p * Y j p) + 1 / INR F * vsum F (fun f => A_diff i f * A_diff j f)
        + 1 / INR D * vsum D (fun d => diff i d * diff j d)) + (if i =? j then 1 / INR D * vsum D (fun d => 1) else 0))%R x x x x) by (intros; reflexivity).
      rewrite !quad_sum.
      pose proof (outer_psd K P Y _ (inv_nonneg P) x). pose proof (outer_psd K F A_diff _ (inv_nonneg F) x). pose proof (outer_psd K D diff _ (inv_nonneg D) x).
      assert (E1 : (1 / INR D * vsum D (fun _ => 1) = 1)%R).
      { rewrite (vsum_ext D (fun _ => 1%R) (fun _ => 1 * 1)%R) by (intros; ring). rewrite vsum_const, Rmult_1_r. field. apply not_0_INR. lia. }
      assert (0 < quad K (fun i j => if i =? j then 1 / INR D * vsum D (fun d => 1) else 0) x x)%R; [|lra].
      rewrite E1. exact (scalar_posdef K 1 ltac:(lra) x Hx).
  Qed.

  (** ** One iteration *)
  Lemma iter_ok varA lmda m : uy_setting -> uy_good m -> symm F varA -> is_inverse F (fun f g => scalar (1 / y_featVar m) f g + gram D X f g)%R varA ->
    exists m', uy_iter K F P D inv varA X lmda (fun _ _ => 1%R) m = Ok m' /\ uy_good m' /\ y_vocab m' = y_vocab m /\ y_featVar m' = y_featVar m /\ y_lowFeatVar m' = y_lowFeatVar m /\
      (y_featVar m = 1%R -> forall B, (uy_cost (y_featVar m) (y_lowFeatVar m) lmda (y_A m) (y_Y m') (y_U m) <= uy_cost (y_featVar m) (y_lowFeatVar m) lmda (y_A m) B (y_U m))%R) /\
      (y_featVar m = 1%R -> forall B, (uy_cost (y_featVar m) (y_lowFeatVar m) lmda (y_A m') (y_Y m') (y_U m) <= uy_cost (y_featVar m) (y_lowFeatVar m) lmda B (y_Y m') (y_U m))%R) /\
      (forall B, (uy_misfit (y_A m') (y_Y m') (y_U m') + trace K (y_sigT m) * squares F P (y_U m') <= uy_misfit (y_A m') (y_Y m') B + trace K (y_sigT m) * squares F P B)%R).
  Proof.
    intros [HK HD Hi HP HF] (Hf & Hl & Hs & Hp) SA IA. unfold uy_iter, uy_sigY, uy_U.
    assert (C1 : (0 < 1 / y_featVar m)%R) by (apply Rdiv_lt_0_compat; lra). assert (C2 : (0 < 1 / y_lowFeatVar m)%R) by (apply Rdiv_lt_0_compat; lra).
    set (M1 := fun p q => (scalar (1 / y_lowFeatVar m) p q + 1 / y_featVar m * gram F (y_U m) p q)%R).
    assert (S1 : symm P M1). { intros i j Hi' Hj. unfold M1. rewrite (scalar_symm P _ i j Hi' Hj), (gram_symm F P (y_U m) i j Hi' Hj). reflexivity. }
    assert (P1 : posdef P M1) by (apply posdef_add; [apply scalar_posdef; exact C2|apply gram_psd|lra]).
    destruct (HP M1 S1 P1) as [N1 E1]. destruct (Hi P M1 N1 E1) as [L1 R1]. unfold la_inv at 1. rewrite E1. cbn [bind].
    set (Y := uy_Y F P (y_A m) (y_U m) N1). set (A := uy_A F P D varA X lmda (y_U m) Y). set (c := vsum K (fun k => y_sigT m k k)).
    assert (Hc : (0 < c)%R). { apply vsum_pos; [exact HK|]. intros k Hk. apply (diag_of_posdef K); assumption. }
    set (M2 := fun p q => (scalar c p q + gram K Y p q)%R).
    assert (S2 : symm P M2). { intros i j Hi' Hj. unfold M2. rewrite (scalar_symm P _ i j Hi' Hj), (gram_symm K P Y i j Hi' Hj). reflexivity. }
    assert (P2 : posdef P M2). { intros x Hx. unfold M2. rewrite quad_sum. pose proof (scalar_posdef P c Hc x Hx). pose proof (gram_psd K P Y x). lra. }
    destruct (HP M2 S2 P2) as [N2 E2]. destruct (Hi P M2 N2 E2) as [L2 R2]. unfold la_inv. rewrite E2. cbn [bind]. eexists. split; [reflexivity|]. unfold uy_good. cbn [y_featVar y_lowFeatVar y_sigT y_vocab y_A y_Y y_U].
    split; [split; [exact Hf|]; split; [exact Hl|]; apply sigT_good; exact HD|]. split; [reflexivity|]. split; [reflexivity|]. split; [reflexivity|].
    assert (SN2 : symm P N2) by (apply (inverse_symm P M2 N2 S2); assumption).
    split; [|split].
    - intros E B. unfold uy_cost. rewrite E in *. replace (1 / 1)%R with 1%R in * by field.
      assert (G : (vsum K (fun k => ridge F P (y_U m) (fun p q => 1 / y_lowFeatVar m * eye p q)%R (y_A m k) (Y k)) <= vsum K (fun k => ridge F P (y_U m) (fun p q => 1 / y_lowFeatVar m * eye p q)%R (y_A m k) (B k)))%R).
      { apply vsum_le. intros k _. apply (base_ok P F (fun q f => y_U m f q) eye (1 / y_lowFeatVar m) (y_A m k) N1).
        - intros i j _ _. unfold eye. rewrite Nat.eqb_sym. reflexivity.
        - apply posdef_psd. apply (scalar_posdef P 1). lra.
        - lra.
        - intros i j Hi' Hj. rewrite <- (L1 i j Hi' Hj). apply vsum_ext. intros l _. f_equal. unfold M1, scalar, gram, eye. rewrite ?E; replace (1 / 1)%R with 1%R by field; destruct (i =? l); ring.
        - intros i j Hi' Hj. rewrite <- (R1 i j Hi' Hj). apply vsum_ext. intros l _. f_equal. unfold M1, scalar, gram, eye. rewrite ?E; replace (1 / 1)%R with 1%R by field; destruct (l =? j); ring. }
      assert (EE : forall Z, vsum K (fun k => ridge F P (y_U m) (fun p q => 1 / y_lowFeatVar m * eye p q)%R (y_A m k) (Z k)) = (uy_misfit (y_A m) Z (y_U m) + 1 / y_lowFeatVar m * squares K P Z)%R).
      { intros Z. unfold ridge, uy_misfit, squares. rewrite <- vsum_scale, <- vsum_plus. apply vsum_ext. intros k _. f_equal. rewrite BouchProps.quad_eye. reflexivity. }
      rewrite !EE in G. lra.
    - intros E B. unfold uy_cost. rewrite E in *. replace (1 / 1)%R with 1%R in * by field.
      assert (G : (vsum K (fun k => penalised D F 1 1 X (fun d => lmda d k) (fun f => vsum P (fun p => y_U m f p * Y k p)) (A k)) <= vsum K (fun k => penalised D F 1 1 X (fun d => lmda d k) (fun f => vsum P (fun p => y_U m f p * Y k p)) (B k)))%R).
      { apply vsum_le. intros k _. apply stationary_optimal; [lra|lra|]. apply (normal_equations D F 1 1 X (fun d => lmda d k) _ _ varA SA).
        - intros i j Hi' Hj. rewrite <- (IA i j Hi' Hj). apply vsum_ext. intros l _. f_equal. unfold normal_matrix, scalar, gram. destruct (i =? l); ring.
        - intros f Hff. unfold A, uy_A. apply vsum_ext. intros g Hg. rewrite (SA f g Hff Hg). ring. }
      assert (EE : forall Z, vsum K (fun k => penalised D F 1 1 X (fun d => lmda d k) (fun f => vsum P (fun p => y_U m f p * Y k p)%R) (Z k)) = (uy_residual lmda Z + uy_misfit Z Y (y_U m))%R).
      { intros Z. unfold penalised, uy_misfit, uy_residual. rewrite <- vsum_plus. apply vsum_ext. intros k _. ring. }
      rewrite !EE in G. lra.
    - intros B. fold c in Hc. change (trace K (y_sigT m)) with c. set (U := fun f p => vsum P (fun q => N2 p q * vsum K (fun k => Y k q * A k f))%R).
      assert (G : (vsum F (fun f => ridge K P Y (fun p q => c * eye p q)%R (fun k => A k f) (U f)) <= vsum F (fun f => ridge K P Y (fun p q => c * eye p q)%R (fun k => A k f) (B f)))%R).
      { apply vsum_le. intros f _.
        replace (ridge K P Y (fun p q => c * eye p q)%R (fun k => A k f) (U f)) with
          (ridge K P Y (fun p q => c * eye p q)%R (fun k => A k f) (fun q => vsum P (fun r => vsum K (fun k => A k f * Y k r) * N2 r q)%R)).
        2:{ assert (EU : forall q, q < P -> vsum P (fun r => vsum K (fun k => A k f * Y k r) * N2 r q)%R = U f q).
            { intros q Hq. unfold U. apply vsum_ext. intros r Hr. rewrite (SN2 q r Hq Hr), Rmult_comm. f_equal. apply vsum_ext. intros; ring. }
            unfold ridge. f_equal; [|apply quad_ext; [reflexivity|exact EU|exact EU]]. apply vsum_ext. intros k _.
            rewrite (vsum_ext P (fun q => Y k q * vsum P (fun r => vsum K (fun k => A k f * Y k r) * N2 r q))%R (fun q => Y k q * U f q)%R) by (intros q Hq; rewrite (EU q Hq); reflexivity). reflexivity. }
        apply (base_ok P K (fun q k => Y k q) eye c (fun k => A k f) N2).
        - intros i j _ _. unfold eye. rewrite Nat.eqb_sym. reflexivity.
        - apply posdef_psd. apply (scalar_posdef P 1). lra.
        - lra.
        - intros i j Hi' Hj. rewrite <- (L2 i j Hi' Hj). apply vsum_ext. intros l _. f_equal. unfold M2, scalar, gram, eye. destruct (i =? l); ring.
        - intros i j Hi' Hj. rewrite <- (R2 i j Hi' Hj). apply vsum_ext. intros l _. f_equal. unfold M2, scalar, gram, eye. destruct (l =? j); ring. }
      assert (EE : forall Z, vsum F (fun f => ridge K P Y (fun p q => c * eye p q)%R (fun k => A k f) (Z f)) = (uy_misfit A Y Z + c * squares F P Z)%R).
      { intros Z. unfold ridge, uy_misfit, squares. rewrite (vsum_swap K F), <- vsum_scale, <- vsum_plus. apply vsum_ext. intros f _. rewrite BouchProps.quad_eye. f_equal. apply vsum_ext. intros k _.
        rewrite (vsum_ext P (fun p => Z f p * Y k p)%R (fun p => Y k p * Z f p)%R) by (intros; ring). reflexivity. }
      rewrite !EE in G. exact G.
  Qed.

  (** ** Training *)
  Variables (W : mat) (draws : mat).
  Definition with_varA (m : uy) (varA : mat) : uy := {| y_A := y_A m; y_varA := varA; y_Y := y_Y m; y_sigY := y_sigY m; y_sigT := y_sigT m; y_U := y_U m;
    y_vocab := y_vocab m; y_topicVar := y_topicVar m; y_featVar := y_featVar m; y_lowTopicVar := y_lowTopicVar m; y_lowFeatVar := y_lowFeatVar m |}.
  Fixpoint after (n : nat) (varA : mat) (m : uy) : res uy :=
    match n with 0 => Ok m | S n => do m <- after n varA m; uy_iter K F P D inv varA X (fun d k => ln (exp (draws d k))) (fun _ _ => 1%R) m end.
  Lemma after_first n varA : forall m, after (S n) varA m = bind (uy_iter K F P D inv varA X (fun d k => ln (exp (draws d k))) (fun _ _ => 1%R) m) (after n varA).
  Proof.
    induction n as [|n IH]; intros m.
    - cbn [after bind]. destruct (uy_iter K F P D inv varA X _ _ m); reflexivity.
    - change (after (S (S n)) varA m) with (bind (after (S n) varA m) (uy_iter K F P D inv varA X (fun d k => ln (exp (draws d k))) (fun _ _ => 1%R))). rewrite IH.
      destruct (uy_iter K F P D inv varA X _ _ m); reflexivity.
  Qed.
  Lemma iter_vocab varA lmda nu m m' : uy_iter K F P D inv varA X lmda nu m = Ok m' -> y_vocab m' = y_vocab m.
  Proof.
    unfold uy_iter. intros E. destruct (uy_sigY F P inv m); cbn [bind] in E; [|discriminate E].
    match type of E with context [uy_U K P inv ?a ?b ?c] => destruct (uy_U K P inv a b c) end; cbn [bind] in E; [|discriminate E]. injection E as <-. reflexivity.
  Qed.
  Lemma loop_after looked elbo epsilon w e v dl varA : forall n i last m m',
    uy_loop K F P D inv looked elbo epsilon n i w X varA {| y_expLmda := e; y_nu := fun _ _ => 1%R; y_lxi := v; y_s := fun _ => 0%R; y_docLen := dl |} (fun d k => ln (exp (draws d k))) last m = Ok m' ->
    exists j, j <= n /\ after j varA m = Ok m' /\ y_vocab m' = y_vocab m /\ ((forall i, looked i = false) -> j = n).
  Proof.
    induction n as [|n IH]; intros i last m m' E; cbn [uy_loop y_nu] in E.
    - injection E as <-. exists 0. split; [lia|]. split; [reflexivity|]. split; [reflexivity|]. reflexivity.
    - destruct (uy_iter K F P D inv varA X (fun d k => ln (exp (draws d k))) (fun _ _ => 1%R) m) as [m1|] eqn:E1; cbn [bind] in E; [|discriminate E].
      assert (EV := iter_vocab _ _ _ _ _ E1).
      assert (G : forall i last, uy_loop K F P D inv looked elbo epsilon n i w X varA {| y_expLmda := e; y_nu := fun _ _ => 1%R; y_lxi := v; y_s := fun _ => 0%R; y_docLen := dl |} (fun d k => ln (exp (draws d k))) last m1 = Ok m' ->
        exists j, j <= S n /\ after j varA m = Ok m' /\ y_vocab m' = y_vocab m /\ ((forall i, looked i = false) -> j = S n)).
      { intros i0 l0 E0. destruct (IH i0 l0 m1 m' E0) as (j & Hj & A1 & A2 & A3). exists (S j). split; [lia|]. split; [rewrite after_first, E1; exact A1|]. split; [congruence|]. intros Hn. f_equal. apply A3. exact Hn. }
      destruct (looked i) eqn:El.
      + destruct (elbo m1 _ X w) as [el|]; cbn [bind] in E; [|discriminate E]. destruct (rltb (Rabs (el - last)) epsilon).
        * injection E as <-. exists 1. split; [lia|]. split; [cbn [after bind]; exact E1|]. split; [exact EV|]. intros Hn. rewrite Hn in El. discriminate El.
        * exact (G _ _ E).
      + exact (G _ _ E).
  Qed.
End uy.

Section train.
  Variables (K F T P D : nat) (inv : nat -> mat -> option mat) (X : mat).

  (** ** C284 *)
  (** The vocabulary is the one that training started with, the means of the topics are the
      draws, and the rest of the model is that of some number of iterations, none of which
      looks at the words. *)
  Theorem C284_kept looked elbo epsilon huge logs plot iterations W m draws m' q :
    uy_train K F T P D inv looked elbo epsilon huge logs plot iterations W X m draws = Ok (m', q) ->
    y_vocab m' = y_vocab m /\ (forall d k, y_expLmda q d k = draws d k /\ y_nu q d k = 1%R) /\ (forall d, y_docLen q d = vsum T (W d)) /\
    exists n, n <= iterations /\ forall W' elbo' epsilon', exists q', uy_train K F T P D inv (fun _ => false) elbo' epsilon' huge logs plot n W' X m draws = Ok (m', q').
  Proof.
    unfold uy_train. cbv zeta. intros E. cbn [y_expLmda y_nu y_lxi y_s y_docLen] in *. destruct (la_inv inv F _) as [varA|]; cbn [bind] in E |- *; [|discriminate E].
    match type of E with bind ?l _ = _ => destruct l as [m1|] eqn:El end; cbn [bind] in E; [|discriminate E]. destruct (loop_after _ _ _ _ _ _ _ _ _ _ _ _ _ _ _ _ _ _ _ _ El) as (n & Hn & A1 & A2 & _).
    destruct (plot && negb logs); [discriminate E|]. injection E as <- <-. cbn [y_expLmda y_nu y_docLen]. split; [exact A2|]. split; [intros d k; split; [apply ln_exp|reflexivity]|]. split; [reflexivity|].
    exists n. split; [exact Hn|]. intros W' elbo' epsilon'.
    assert (G : forall e v dl i last m, after K F P D inv X draws n varA m = Ok m1 -> uy_loop K F P D inv (fun _ => false) elbo' epsilon' n i W' X varA {| y_expLmda := e; y_nu := fun _ _ => 1%R; y_lxi := v; y_s := fun _ => 0%R; y_docLen := dl |} (fun d k => ln (exp (draws d k))) last m = Ok m1).
    { clear. induction n as [|n IH]; intros e v dl i last m E; [exact E|]. rewrite after_first in E. cbn [uy_loop y_nu]. destruct (uy_iter K F P D inv varA X _ _ m) as [m2|]; cbn [bind] in *; [|discriminate E]. apply IH. exact E. }
    rewrite (G _ _ _ _ _ _ A1). cbn [bind]. eexists. reflexivity.
  Qed.

  (** ** C285 *)
  Variables (W draws : mat) (elbo : uy -> uy_query -> mat -> mat -> res R) (epsilon huge : R).
  (** The model after [n] iterations without a log. *)
  Notation trained m n := (uy_train K F T P D inv (fun _ => false) elbo epsilon huge false false n W X m draws).
  Notation cost m := (uy_cost K F P D X (y_featVar m) (y_lowFeatVar m) draws).
  Lemma lmda_same fv lv A Y U : uy_cost K F P D X fv lv (fun d k => ln (exp (draws d k))) A Y U = uy_cost K F P D X fv lv draws A Y U.
  Proof. unfold uy_cost, uy_residual. f_equal. f_equal. apply vsum_ext. intros k _. apply vsum_ext. intros d _. rewrite ln_exp. reflexivity. Qed.
  Lemma varA_ok m : uy_setting K F P D inv -> uy_good K m -> exists varA, la_inv inv F (fun f g => scalar (1 / y_featVar m) f g + gram D X f g)%R = Ok varA /\ symm F varA /\
    is_inverse F (fun f g => scalar (1 / y_featVar m) f g + gram D X f g)%R varA.
  Proof.
    intros [HK HD Hi HP HF] (Hf & _). set (M := fun f g => (scalar (1 / y_featVar m) f g + gram D X f g)%R). assert (C1 : (0 < 1 / y_featVar m)%R) by (apply Rdiv_lt_0_compat; lra).
    assert (SM : symm F M). { intros i j Hi' Hj. unfold M. rewrite (scalar_symm F _ i j Hi' Hj), (gram_symm D F X i j Hi' Hj). reflexivity. }
    assert (PM : posdef F M). { intros x Hx. unfold M. rewrite quad_sum. pose proof (scalar_posdef F _ C1 x Hx). pose proof (gram_psd D F X x). lra. }
    destruct (HF M SM PM) as [N E]. destruct (Hi F M N E) as [L R0]. exists N. unfold la_inv. rewrite E. split; [reflexivity|]. split; [apply (inverse_symm F M N SM); assumption|exact L].
  Qed.
  Lemma after_ok varA n : forall m, uy_setting K F P D inv -> uy_good K m -> symm F varA -> is_inverse F (fun f g => scalar (1 / y_featVar m) f g + gram D X f g)%R varA ->
    exists m', after K F P D inv X draws n varA m = Ok m' /\ uy_good K m' /\ y_featVar m' = y_featVar m /\ y_lowFeatVar m' = y_lowFeatVar m.
  Proof.
    intros m HS Hg SA IA. induction n as [|n (m1 & E1 & G1 & F1 & L1)]; [exists m; split; [reflexivity|]; split; [exact Hg|]; split; reflexivity|].
    cbn [after]. rewrite E1. cbn [bind]. rewrite <- F1 in IA. destruct (iter_ok K F P D inv X varA (fun d k => ln (exp (draws d k))) m1 HS G1 SA IA) as (m2 & E2 & G2 & _ & F2 & L2 & _).
    exists m2. split; [exact E2|]. split; [exact G2|]. split; congruence.
  Qed.
  Lemma trained_after m n m' q : trained m n = Ok (m', q) -> forall varA, la_inv inv F (fun f g => scalar (1 / y_featVar m) f g + gram D X f g)%R = Ok varA ->
    after K F P D inv X draws n varA (with_varA m varA) = Ok m'.
  Proof.
    unfold uy_train. cbv zeta. intros E varA EA. rewrite EA in E. cbn [bind y_expLmda y_nu y_lxi y_s y_docLen andb] in E.
    match type of E with bind ?l _ = _ => destruct l as [m1|] eqn:El end; cbn [bind] in E; [|discriminate E]. destruct (loop_after _ _ _ _ _ _ _ _ _ _ _ _ _ _ _ _ _ _ _ _ El) as (j & _ & A1 & _ & Hj).
    rewrite (Hj (fun _ => eq_refl)) in A1. injection E as <- _. exact A1.
  Qed.
  Theorem C285_completes m n : uy_setting K F P D inv -> uy_good K m -> exists m' q, trained m n = Ok (m', q) /\ symm K (y_sigT m') /\ posdef K (y_sigT m').
  Proof.
    intros HS Hg. destruct (varA_ok m HS Hg) as (varA & EA & SA & IA). destruct (after_ok varA n (with_varA m varA) HS Hg SA IA) as (m' & E & (_ & _ & G1 & G2) & _).
    unfold uy_train. cbv zeta. rewrite EA. cbn [bind y_expLmda].
    assert (G : forall e v dl i last m, after K F P D inv X draws n varA m = Ok m' -> uy_loop K F P D inv (fun _ => false) elbo epsilon n i W X varA {| y_expLmda := e; y_nu := fun _ _ => 1%R; y_lxi := v; y_s := fun _ => 0%R; y_docLen := dl |} (fun d k => ln (exp (draws d k))) last m = Ok m').
    { clear. induction n as [|n IH]; intros e v dl i last m E; [exact E|]. rewrite after_first in E. cbn [uy_loop y_nu]. destruct (uy_iter K F P D inv varA X _ _ m) as [m2|]; cbn [bind] in *; [|discriminate E]. apply IH. exact E. }
    rewrite (G _ _ _ _ _ _ E). cbn [bind andb]. eexists. eexists. split; [reflexivity|]. split; assumption.
  Qed.
  Lemma steps m n m1 q1 m2 q2 : uy_setting K F P D inv -> uy_good K m -> trained m n = Ok (m1, q1) -> trained m (S n) = Ok (m2, q2) ->
    exists varA, uy_good K m1 /\ symm F varA /\ is_inverse F (fun f g => scalar (1 / y_featVar m1) f g + gram D X f g)%R varA /\ y_featVar m1 = y_featVar m /\ y_lowFeatVar m1 = y_lowFeatVar m /\
      uy_iter K F P D inv varA X (fun d k => ln (exp (draws d k))) (fun _ _ => 1%R) m1 = Ok m2.
  Proof.
    intros HS Hg E1 E2. destruct (varA_ok m HS Hg) as (varA & EA & SA & IA). destruct (after_ok varA n (with_varA m varA) HS Hg SA IA) as (m' & E & G1 & F1 & L1).
    pose proof (trained_after _ _ _ _ E1 varA EA) as A1. pose proof (trained_after _ _ _ _ E2 varA EA) as A2. rewrite E in A1. injection A1 as ->. cbn [after] in A2. rewrite E in A2. cbn [bind] in A2.
    exists varA. split; [exact G1|]. split; [exact SA|]. rewrite F1. split; [exact IA|]. split; [reflexivity|]. split; [exact L1|exact A2].
  Qed.
  Theorem C285_latent m n m1 q1 m2 q2 : uy_setting K F P D inv -> uy_good K m -> y_featVar m = 1%R -> trained m n = Ok (m1, q1) -> trained m (S n) = Ok (m2, q2) ->
    forall B, (cost m (y_A m1) (y_Y m2) (y_U m1) <= cost m (y_A m1) B (y_U m1))%R.
  Proof.
    intros HS Hg H1 E1 E2 B. destruct (steps m n m1 q1 m2 q2 HS Hg E1 E2) as (varA & G1 & SA & IA & F1 & L1 & E).
    destruct (iter_ok K F P D inv X varA (fun d k => ln (exp (draws d k))) m1 HS G1 SA IA) as (m' & E' & _ & _ & _ & _ & O & _). rewrite E in E'. injection E' as <-. rewrite F1, L1 in O. rewrite <- !lmda_same. apply O. exact H1.
  Qed.
  Theorem C285_features m n m1 q1 m2 q2 : uy_setting K F P D inv -> uy_good K m -> y_featVar m = 1%R -> trained m n = Ok (m1, q1) -> trained m (S n) = Ok (m2, q2) ->
    forall B, (cost m (y_A m2) (y_Y m2) (y_U m1) <= cost m B (y_Y m2) (y_U m1))%R.
  Proof.
    intros HS Hg H1 E1 E2 B. destruct (steps m n m1 q1 m2 q2 HS Hg E1 E2) as (varA & G1 & SA & IA & F1 & L1 & E).
    destruct (iter_ok K F P D inv X varA (fun d k => ln (exp (draws d k))) m1 HS G1 SA IA) as (m' & E' & _ & _ & _ & _ & _ & O & _). rewrite E in E'. injection E' as <-. rewrite F1, L1 in O. rewrite <- !lmda_same. apply O. exact H1.
  Qed.
  Theorem C285_projection m n m1 q1 m2 q2 : uy_setting K F P D inv -> uy_good K m -> trained m n = Ok (m1, q1) -> trained m (S n) = Ok (m2, q2) -> forall B,
    (uy_misfit K F P (y_A m2) (y_Y m2) (y_U m2) + trace K (y_sigT m1) * squares F P (y_U m2) <= uy_misfit K F P (y_A m2) (y_Y m2) B + trace K (y_sigT m1) * squares F P B)%R.
  Proof.
    intros HS Hg E1 E2 B. destruct (steps m n m1 q1 m2 q2 HS Hg E1 E2) as (varA & G1 & SA & IA & F1 & L1 & E).
    destruct (iter_ok K F P D inv X varA (fun d k => ln (exp (draws d k))) m1 HS G1 SA IA) as (m' & E' & _ & _ & _ & _ & _ & _ & O). rewrite E in E'. injection E' as <-. apply O.
  Qed.
End train.

(** ** Witnesses *)
Definition mu1 : uy := uy_new 1 1 1 0 (1 / 100) (1 / 100) 1 1 one one one one.
Lemma set1 : uy_setting 1 1 1 1 inv1.
Proof. constructor; try lia; apply inv1_ok. Qed.
Lemma good1 : uy_good 1 mu1.
Proof.
  unfold uy_good, mu1, uy_new. cbn [y_featVar y_lowFeatVar y_sigT]. split; [lra|]. split; [lra|]. split; [apply scalar_symm|]. apply scalar_posdef. lra.
Qed.
Definition noelbo : uy -> uy_query -> mat -> mat -> res R := fun _ _ _ _ => Ok 0%R.
(** Two corpora with different words give the same model. *)
Theorem C284_words_refuted : exists K F T P D inv X m draws W W', uy_setting K F P D inv /\ uy_good K m /\ (exists d t, d < D /\ t < T /\ W d t <> W' d t) /\
  forall looked elbo epsilon huge n, (forall i, looked i = false) -> exists m' q q', 
    uy_train K F T P D inv looked elbo epsilon huge false false n W X m draws = Ok (m', q) /\ uy_train K F T P D inv looked elbo epsilon huge false false n W' X m draws = Ok (m', q') /\
    y_expLmda q = y_expLmda q' /\ y_nu q = y_nu q' /\ y_lxi q = y_lxi q' /\ y_s q = y_s q'.
Proof.
  exists 1, 1, 2, 1, 1, inv1, one, mu1, one, (fun _ t => if t =? 0 then 2 else 0)%R, (fun _ t => if t =? 0 then 0 else 2)%R.
  split; [exact set1|]. split; [exact good1|]. split; [exists 0, 0; split; [lia|]; split; [lia|]; cbn; lra|]. intros looked elbo epsilon huge n Hl.
  set (W := fun _ t => (if t =? 0 then 2 else 0)%R). set (W' := fun _ t => (if t =? 0 then 0 else 2)%R).
  destruct (varA_ok 1 1 1 1 inv1 one mu1 set1 good1) as (varA & EA & SA & IA). destruct (after_ok 1 1 1 1 inv1 one one varA n (with_varA mu1 varA) set1 good1 SA IA) as (m' & E & _).
  assert (G : forall w e v dl i last m, after 1 1 1 1 inv1 one one n varA m = Ok m' -> uy_loop 1 1 1 1 inv1 looked elbo epsilon n i w one varA {| y_expLmda := e; y_nu := fun _ _ => 1%R; y_lxi := v; y_s := fun _ => 0%R; y_docLen := dl |} (fun d k => ln (exp (one d k))) last m = Ok m').
  { clear - Hl. induction n as [|n IH]; intros w e v dl i last m E; [exact E|]. rewrite after_first in E. cbn [uy_loop y_nu]. destruct (uy_iter 1 1 1 1 inv1 varA one _ _ m) as [m2|]; cbn [bind] in *; [|discriminate E]. rewrite Hl. apply IH. exact E. }
  unfold uy_train. cbv zeta. rewrite EA. cbn [bind y_expLmda]. rewrite !(G _ _ _ _ _ _ _ E). cbn [bind andb].
  eexists. eexists. eexists. split; [reflexivity|]. split; [reflexivity|]. split; [reflexivity|]. split; [reflexivity|]. split; reflexivity.
Qed.
(** What is returned as exponentials of the means of the topics are the means. *)
Theorem C284_exponentials_refuted : exists K F T P D inv X m draws W m' q, uy_setting K F P D inv /\ uy_good K m /\ (forall n, n <= 3 -> exists m1 q1, uy_train K F T P D inv (fun _ => false) noelbo 0 1 false false n W X m draws = Ok (m1, q1)) /\
  uy_train K F T P D inv (fun _ => false) noelbo 0 1 false false 3 W X m draws = Ok (m', q) /\ y_expLmda q 0%nat 0%nat <> exp (draws 0%nat 0%nat).
Proof.
  destruct (C285_completes 1 1 1 1 1 inv1 one one one noelbo 0 1 mu1 3 set1 good1) as (m' & q & E & _).
  exists 1, 1, 1, 1, 1, inv1, one, mu1, one, one, m', q. split; [exact set1|]. split; [exact good1|]. split.
  - intros n _. destruct (C285_completes 1 1 1 1 1 inv1 one one one noelbo 0 1 mu1 n set1 good1) as (m1 & q1 & E1 & _). exists m1, q1. exact E1.
  - split; [exact E|]. destruct (C284_kept _ _ _ _ _ _ _ _ _ _ _ _ _ _ _ _ _ _ _ E) as (_ & H & _). destruct (H 0 0) as [-> _]. unfold one. pose proof (exp_ineq1 1 ltac:(lra)). lra.
Qed.
(** A model as it is made: the variance of the features is 1/100 whatever was asked for, and
    the latent map is far from the best. *)
Theorem C285_scale_refuted : exists K F T P D inv X W draws m m' q B, uy_setting K F P D inv /\ uy_good K m /\
  uy_train K F T P D inv (fun _ => false) noelbo 0 1 false false 1 W X m draws = Ok (m', q) /\
  (uy_cost K F P D X (y_featVar m) (y_lowFeatVar m) draws (y_A m) B (y_U m) < uy_cost K F P D X (y_featVar m) (y_lowFeatVar m) draws (y_A m) (y_Y m') (y_U m))%R.
Proof.
  destruct (C285_completes 1 1 1 1 1 inv1 one one one noelbo 0 1 mu1 1 set1 good1) as (m' & q & E & _).
  exists 1, 1, 1, 1, 1, inv1, one, one, one, mu1, m', q, (fun _ _ => 1%R). split; [exact set1|]. split; [exact good1|]. split; [exact E|].
  destruct (varA_ok 1 1 1 1 inv1 one mu1 set1 good1) as (varA & EA & SA & IA). pose proof (trained_after 1 1 1 1 1 inv1 one one one noelbo 0 1 mu1 1 m' q E varA EA) as A. cbn [after bind] in A.
  unfold uy_iter, uy_sigY, la_inv at 1 in A. cbn [inv1] in A.
  match type of A with context [rltb 0 ?z] => assert (R1 : rltb 0 z = true) by (apply rltb_true; unfold scalar, gram, vsum, with_varA, mu1, uy_new, one; cbn; lra); rewrite R1 in A end. cbn [bind] in A.
  match type of A with context [uy_U ?a ?b ?c ?d ?e ?f] => destruct (uy_U a b c d e f) end; cbn [bind] in A; [|discriminate A]. injection A as <-.
  unfold uy_cost, uy_misfit, uy_residual, squares. cbn [y_Y y_A y_U mu1 uy_new with_varA y_featVar y_lowFeatVar]. unfold uy_Y, vsum, one, scalar, gram. cbn. lra.
Qed.
Theorem C285_settings_refuted : exists K T P epsilon featVar topicVar latFeatVar latTopicVar Y U0 V draws, (0 < featVar)%R /\ (0 < latFeatVar)%R /\
  let m := uy_new K T P epsilon featVar topicVar latFeatVar latTopicVar Y U0 V draws in y_featVar m <> featVar /\ y_lowFeatVar m <> latFeatVar /\ y_lowTopicVar m <> latTopicVar.
Proof. exists 1, 1, 1, 0%R, 2%R, 2%R, 2%R, 2%R, one, one, one, one. cbn [uy_new y_featVar y_lowFeatVar y_lowTopicVar]. repeat split; lra. Qed.

(** ** Cases *)
Definition mu2 : uy := {| y_A := one; y_varA := eye; y_Y := one; y_sigY := eye; y_sigT := scalar 1; y_U := one; y_vocab := one; y_topicVar := 1; y_featVar := 1; y_lowTopicVar := 1; y_lowFeatVar := 1 |}.
Example C284_case : exists m' q, uy_train 1 1 1 1 1 inv1 (fun i => i =? 1) noelbo 0 1 true true 2 one one mu1 one = Ok (m', q) /\ uy_setting 1 1 1 1 inv1.
Proof.
  destruct (varA_ok 1 1 1 1 inv1 one mu1 set1 good1) as (varA & EA & SA & IA). destruct (after_ok 1 1 1 1 inv1 one one varA 1 (with_varA mu1 varA) set1 good1 SA IA) as (m1 & E1 & _).
  destruct (after_ok 1 1 1 1 inv1 one one varA 2 (with_varA mu1 varA) set1 good1 SA IA) as (m2 & E2 & _). cbn [after bind] in E1. cbn [after bind] in E2. rewrite E1 in E2. cbn [bind] in E2.
  unfold uy_train. cbv zeta. rewrite EA. cbn [bind y_expLmda uy_loop y_nu Nat.eqb andb negb]. change {| y_A := y_A mu1; y_varA := varA; y_Y := y_Y mu1; y_sigY := y_sigY mu1; y_sigT := y_sigT mu1; y_U := y_U mu1; y_vocab := y_vocab mu1;
     y_topicVar := y_topicVar mu1; y_featVar := y_featVar mu1; y_lowTopicVar := y_lowTopicVar mu1; y_lowFeatVar := y_lowFeatVar mu1 |} with (with_varA mu1 varA).
  rewrite E1. cbn [bind]. rewrite E2. cbn [bind noelbo]. destruct (rltb _ _); cbn [bind]; eexists; eexists; (split; [reflexivity|exact set1]).
Qed.
Example C285_case n : uy_setting 1 1 1 1 inv1 /\ uy_good 1 mu2 /\ y_featVar mu2 = 1%R /\ exists m1 q1 m2 q2,
  uy_train 1 1 1 1 1 inv1 (fun _ => false) noelbo 0 1 false false n one one mu2 one = Ok (m1, q1) /\ uy_train 1 1 1 1 1 inv1 (fun _ => false) noelbo 0 1 false false (S n) one one mu2 one = Ok (m2, q2).
Proof.
  assert (G : uy_good 1 mu2). { unfold uy_good, mu2. cbn [y_featVar y_lowFeatVar y_sigT]. split; [lra|]. split; [lra|]. split; [apply scalar_symm|]. apply scalar_posdef. lra. }
  split; [exact set1|]. split; [exact G|]. split; [reflexivity|].
  destruct (C285_completes 1 1 1 1 1 inv1 one one one noelbo 0 1 mu2 n set1 G) as (m1 & q1 & E1 & _). destruct (C285_completes 1 1 1 1 1 inv1 one one one noelbo 0 1 mu2 (S n) set1 G) as (m2 & q2 & E2 & _).
  exists m1, q1, m2, q2. split; assumption.
Qed.

Print Assumptions C284_kept.
Print Assumptions C285_completes.
Print Assumptions C285_latent.
Print Assumptions C285_features.
Print Assumptions C285_projection.
Print Assumptions C284_words_refuted.
Print Assumptions C284_exponentials_refuted.
Print Assumptions C285_scale_refuted.
Print Assumptions C285_settings_refuted.
