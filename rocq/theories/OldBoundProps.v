(** * Property C283: the bound that old/sidetopic.py prints *)
From Coq Require Import List Reals ZArith Arith Bool Lra Lia.
From Verif Require Import Base RealModel RealProofs VbModel VbProofs LinkModel LinkProps CtmModel CtmProofs CtmProps StmProofs StmProps MtmModel MtmProofs
  MtmProps BouchModel BouchProofs BouchProps VecyProofs UyvModel UyvProofs OldModel OldProofs OldProps OldBoundModel.
Import ListNotations.
Open Scope nat_scope.

Lemma log1pexp_small x : (0 < x <= 33)%R -> log1pexp_py x = ln (1 + exp x).
Proof.
  intros H. unfold log1pexp_py. assert (E : forall a b, (b < a)%R -> rleb a b = false) by (intros a b Hab; unfold rleb; destruct (Rle_dec a b); [lra|reflexivity]).
  rewrite !E by lra. unfold rleb. destruct (Rle_dec x 33); [|lra]. symmetry. apply log1pexp_split.
Qed.
Lemma elements_trace n m M S : vsum n (fun i => vsum n (fun j => gram m M i j * S i j))%R = trace2 n (gram m M) S.
Proof. unfold trace2. rewrite vsum_swap. apply vsum_ext. intros i Hi. apply vsum_ext. intros j Hj. rewrite (gram_symm m n M j i Hj Hi). reflexivity. Qed.

Section printed.
  Variables (K F T P D : nat) (tiny sigma tau : R) (ldetP ldetF : mat -> R) (W X : mat).
  Hypothesis HK : 0 < K.
  Hypothesis Ht : (0 < tiny)%R.
  Hypothesis HW : forall d t, d < D -> t < T -> (0 <= W d t)%R.
  (** The tangents are those of the means and deviations, as after every iteration, the
      offsets are zero, and no tangent is very large. *)
  Definition settled (q : old_query) : Prop := forall d, d < D -> o_s q d = 0%R /\ forall k, k < K ->
    (0 < o_nu q d k)%R /\ (derive_xi (o_lmda q d k) (o_nu q d k) 0 <= 33)%R /\ o_lxi q d k = jaakkola (derive_xi (o_lmda q d k) (o_nu q d k) 0).
  Notation xi q := (fun d k => derive_xi (o_lmda q d k) (o_nu q d k) 0).
  Notation var q := (fun d k => (o_nu q d k * o_nu q d k)%R).

  (** The entropy and the expectation of the assignments of the words. *)
  Lemma shares o q d t : common K T D tiny W (o_vocab o) -> d < D -> t < T ->
    let Z := old_Z K (o_lmda q) (old_ln tiny (o_vocab o)) in
    (W d t * vsum K (fun k => o_lmda q d k * Z d k t + old_ln tiny (o_vocab o) k t * Z d k t - x_log_x tiny (Z d k t)) = W d t * ln (vsum K (fun k => exp (o_lmda q d k) * o_vocab o k t)))%R.
  Proof.
    intros Hc Hd Hti Z. destruct (HW d t Hd Hti) as [Hp|<-]; [|ring]. assert (Ho : occurs T D W t) by (split; [exact Hti|exists d; split; assumption]).
    f_equal. set (ms := vsum K (fun k => exp (o_lmda q d k) * o_vocab o k t)%R).
    assert (Hv : forall k, k < K -> (tiny <= o_vocab o k t)%R) by (intros; apply Hc; assumption).
    assert (Hm : (0 < ms)%R). { apply vsum_pos; [exact HK|]. intros k Hk. pose proof (Hv k Hk). apply Rmult_lt_0_compat; [apply exp_pos|lra]. }
    assert (EL : forall k, k < K -> old_ln tiny (o_vocab o) k t = ln (o_vocab o k t)).
    { intros k Hk. unfold old_ln. replace (rltb (o_vocab o k t) tiny) with false; [reflexivity|]. symmetry. apply rltb_false. apply Hv. exact Hk. }
    assert (EZ : forall k, k < K -> Z d k t = (exp (o_lmda q d k) * o_vocab o k t / ms)%R).
    { intros k Hk. unfold Z, old_Z. rewrite (EL k Hk). rewrite exp_plus, exp_ln by (pose proof (Hv k Hk); lra). f_equal. apply vsum_ext. intros j Hj.
      rewrite (EL j Hj), exp_plus, exp_ln by (pose proof (Hv j Hj); lra). reflexivity. }
    rewrite (vsum_ext K _ (fun k => exp (o_lmda q d k) * o_vocab o k t * (ln ms / ms))%R).
    - rewrite vsum_scale_r. fold ms. field. lra.
    - intros k Hk. pose proof (Hv k Hk) as H1. pose proof (exp_pos (o_lmda q d k)) as H2.
      assert (HZ : (0 < Z d k t)%R) by (rewrite (EZ k Hk); apply Rdiv_lt_0_compat; [apply Rmult_lt_0_compat; lra|exact Hm]).
      unfold x_log_x. rewrite (proj2 (rltb_true _ _) HZ), (EL k Hk), (EZ k Hk). unfold Rdiv at 4. rewrite ln_mult by (try apply Rinv_0_lt_compat; try apply Rmult_lt_0_compat; lra).
      rewrite ln_Rinv, ln_mult, ln_exp by lra. field. lra.
  Qed.

  Lemma words_exact o q : common K T D tiny W (o_vocab o) -> settled q ->
    words_part K T D tiny W o q = vsum D (fun d => vsum T (fun t => W d t * ln (vsum K (fun k => exp (o_lmda q d k) * o_vocab o k t)))
      - vsum T (W d) * (bouchard K 0 (xi q d) (o_lmda q d) + vsum K (fun k => jaakkola (xi q d k) * var q d k)))%R.
  Proof.
    intros Hc Hs. unfold words_part. cbv zeta. set (lv := old_ln tiny (o_vocab o)). set (Z := old_Z K (o_lmda q) lv).
    rewrite (vsum_ext K (fun k => vsum T (fun t => lv k t * vsum D (fun d => W d t * Z d k t)))%R (fun k => vsum D (fun d => vsum T (fun t => W d t * (lv k t * Z d k t))))%R).
    2:{ intros k _. rewrite (vsum_swap D T). apply vsum_ext. intros t _. rewrite <- vsum_scale. apply vsum_ext. intros; ring. }
    rewrite (vsum_swap K D). rewrite <- !vsum_scale. unfold Rminus. rewrite <- !vsum_opp, <- !vsum_plus. apply vsum_ext. intros d Hd. destruct (Hs d Hd) as [E0 Hk0].
    rewrite E0. rewrite (vsum_ext T (fun t => W d t * ln (vsum K (fun k => exp (o_lmda q d k) * o_vocab o k t)))%R _ (fun t Hti => eq_sym (shares o q d t Hc Hd Hti))). cbv zeta. fold lv. fold Z.
    set (n := vsum T (W d)).
    assert (E1 : vsum T (fun t => W d t * vsum K (fun k => o_lmda q d k * Z d k t + lv k t * Z d k t - x_log_x tiny (Z d k t)))%R
      = (vsum K (fun k => o_lmda q d k * vsum T (fun t => W d t * Z d k t)) + vsum K (fun k => vsum T (fun t => W d t * (lv k t * Z d k t)))
         - vsum T (fun t => W d t * vsum K (fun k => x_log_x tiny (Z d k t))))%R).
    { rewrite (vsum_ext K (fun k => o_lmda q d k * vsum T (fun t => W d t * Z d k t))%R (fun k => vsum T (fun t => W d t * (o_lmda q d k * Z d k t)))%R)
        by (intros k _; rewrite <- vsum_scale; apply vsum_ext; intros; ring).
      rewrite (vsum_swap K T (fun k t => W d t * (o_lmda q d k * Z d k t))%R), (vsum_swap K T (fun k t => W d t * (lv k t * Z d k t))%R), <- vsum_plus, <- vsum_minus.
      apply vsum_ext. intros t _. rewrite !vsum_scale, vsum_minus, vsum_plus. ring. }
    assert (E2 : (n * (bouchard K 0 (xi q d) (o_lmda q d) + vsum K (fun k => jaakkola (xi q d k) * var q d k)))%R
      = vsum K (fun k => n * o_lmda q d k * o_lxi q d k * o_lmda q d k + n * o_nu q d k * o_nu q d k * o_lxi q d k + 5 / 10 * (n * o_lmda q d k) + n * o_lxi q d k * (0 * 0 - xi q d k * xi q d k)
        + - (5 / 10 * (n * (0 + xi q d k))) + n * log1pexp_py (xi q d k))%R).
    { unfold bouchard. rewrite Rplus_0_l, <- vsum_plus, <- vsum_scale. apply vsum_ext. intros k Hk. destruct (Hk0 k Hk) as (P1 & P2 & ->).
      rewrite log1pexp_small by (split; [apply xi_pos; exact P1|exact P2]). field. }
    rewrite E1, E2. unfold Rminus.
    rewrite (vsum_ext K (fun k => 0 * (n * o_lmda q d k * o_lxi q d k))%R (fun _ => 0%R)) by (intros; ring). rewrite (vsum_zero K).
    rewrite !vsum_plus, vsum_opp, !vsum_scale. ring.
  Qed.

  (** What is printed, next to the bound that training improves.  The size of the corpus, the
      numbers of topics and features and the variances give a constant; the rest should not
      be there. *)
  Definition excess (o : old) (q : old_query) : R :=
    (1 / (2 * (sigma * sigma)) * (vsum D (fun d => vsum K (fun k => o_nu q d k * o_nu q d k)) - vsum D (fun d => vsum K (fun k => o_nu q d k)))
     + INR K * (tau * tau) / (2 * (sigma * sigma)) * (1 - INR D) * trace2 F (gram D X) (o_varA o)
     + INR K / 2 * (vsum F (fun f => quad P (o_varV o) (o_U o f) (o_U o f)) - vsum P (fun p => quad F (o_varA o) (fun f => o_U o f p) (fun f => o_U o f p))))%R.
  Theorem C283_printed : exists c, forall o q, (0 < sigma)%R -> (0 < tau)%R -> common K T D tiny W (o_vocab o) -> settled q ->
    printed K F T P D tiny sigma tau ldetP ldetF W X o q
    = (bound K F T P D sigma tau W X ldetP ldetF o (o_lmda q) (var q) (fun _ => 0) (xi q) + excess o q + c)%R.
  Proof.
    exists (- (5 / 10) * INR D * INR K * ln (sigma * sigma) - 5 / 10 * INR K * INR F * ln (2 * PI) - 5 / 10 * INR K * INR F * ln (tau * tau)
      + 5 / 10 * INR F * INR K + ln (2 * PI * exp 1) + 5 / 10 * INR F * INR K * ln (tau * tau) + 5 / 10 * INR P * INR K * ln (2 * PI * exp 1) + 5 / 10 * INR P * INR K * ln (tau * tau))%R.
    intros o q Hsg Hta Hc Hs. unfold printed. rewrite (words_exact o q Hc Hs). unfold topics_part, map_part, latent_part, entropies. cbv zeta. rewrite elements_trace.
    fold (trace F (o_varA o)) (trace P (o_varV o)) (misfit K F P (o_A o) (o_U o) (o_V o)) (squares P K (o_V o)).
    assert (EU : vsum F (fun f => vsum P (fun p => vsum F (fun g => o_varA o f g * o_U o g p) * o_U o f p))%R = vsum P (fun p => quad F (o_varA o) (fun f => o_U o f p) (fun f => o_U o f p))).
    { rewrite (vsum_swap F P). apply vsum_ext. intros p _. unfold quad. apply vsum_ext. intros f _. rewrite <- vsum_scale_r. apply vsum_ext. intros; ring. }
    rewrite EU. unfold bound, documents, excess.
    assert (ED : vsum D (fun d => objective K T (o_vocab o) (fun k => vsum F (fun f => X d f * o_A o f k))%R (diag (fun _ => 1 / (sigma * sigma))%R) (W d) 0 (xi q d) (o_lmda q d) (var q d))
      = (vsum D (fun d => vsum T (fun t => W d t * ln (vsum K (fun k => exp (o_lmda q d k) * o_vocab o k t)))
          - vsum T (W d) * (bouchard K 0 (xi q d) (o_lmda q d) + vsum K (fun k => jaakkola (xi q d k) * var q d k)))
         - 1 / (2 * (sigma * sigma)) * vsum D (fun d => vsum K (fun k => (o_lmda q d k - vsum F (fun f => X d f * o_A o f k)) * (o_lmda q d k - vsum F (fun f => X d f * o_A o f k))))
         - 1 / (2 * (sigma * sigma)) * vsum D (fun d => vsum K (fun k => o_nu q d k * o_nu q d k)) + 5 / 10 * vsum D (fun d => vsum K (fun k => ln (o_nu q d k * o_nu q d k))))%R).
    { rewrite <- !vsum_scale, <- !vsum_minus, <- vsum_plus. apply vsum_ext. intros d _. unfold objective. unfold diag at 1. rewrite quad_diag, vsum_scale.
      rewrite (vsum_ext K (fun k => diag (fun _ => 1 / (sigma * sigma)) k k * var q d k)%R (fun k => 1 / (sigma * sigma) * (o_nu q d k * o_nu q d k))%R) by (intros; rewrite diag_at; reflexivity).
      rewrite vsum_scale. field. lra. }
    rewrite ED. field. split; lra.
  Qed.
End printed.

(** Two models that differ only in the projection: the printed bound prefers the other one. *)
Definition pick (a b : R) : mat := fun f _ => if f =? 0 then a else b.
Definition varA2 : mat := fun i j => if i =? j then (if i =? 0 then 1 else 3)%R else 0%R.
Definition two (U : mat) : old := {| o_A := none; o_varA := varA2; o_V := none; o_varV := eye; o_U := U; o_vocab := one |}.
Definition q2 : old_query := {| o_lmda := none; o_nu := one; o_lxi := fun _ _ => jaakkola 1; o_s := fun _ => 0%R |}.
Lemma xi2 : derive_xi 0 1 0 = 1%R.
Proof. unfold derive_xi. replace (0 * 0 - 2 * 0 * 0 + 0 * 0 + 1 * 1)%R with 1%R by ring. apply sqrt_1. Qed.
Lemma settled2 : settled 1 1 q2.
Proof. intros d _. split; [reflexivity|]. intros k _. cbn [q2 o_nu o_lmda o_lxi]. unfold none, one. rewrite xi2. split; [lra|]. split; [lra|reflexivity]. Qed.

Theorem C283_order_refuted : exists K F T P D tiny sigma tau W X o1 o2 q,
  symm F (o_varA o1) /\ posdef F (o_varA o1) /\ symm P (o_varV o1) /\ posdef P (o_varV o1) /\ o_varA o2 = o_varA o1 /\ o_varV o2 = o_varV o1 /\
  common K T D tiny W (o_vocab o1) /\ common K T D tiny W (o_vocab o2) /\ settled K D q /\ forall ldetP ldetF,
  (bound K F T P D sigma tau W X ldetP ldetF o1 (o_lmda q) (fun d k => o_nu q d k * o_nu q d k) (fun _ => 0) (fun d k => derive_xi (o_lmda q d k) (o_nu q d k) 0)
   < bound K F T P D sigma tau W X ldetP ldetF o2 (o_lmda q) (fun d k => o_nu q d k * o_nu q d k) (fun _ => 0) (fun d k => derive_xi (o_lmda q d k) (o_nu q d k) 0))%R /\
  (printed K F T P D tiny sigma tau ldetP ldetF W X o2 q < printed K F T P D tiny sigma tau ldetP ldetF W X o1 q)%R.
Proof.
  exists 1, 2, 1, 1, 1, (1 / 2)%R, 1%R, 1%R, one, one, (two (pick 2 0)), (two (pick 0 (3 / 2))), q2. cbn [two o_varA o_varV o_vocab].
  assert (HC : common 1 1 1 (1 / 2) one one) by (intros k t _ _; unfold one; lra).
  split; [apply (diag_symm 2 (fun i => if i =? 0 then 1 else 3)%R)|]. split; [apply (diag_posdef 2 (fun i => if i =? 0 then 1 else 3)%R); intros [|k] _; cbn; lra|].
  split; [apply (scalar_symm 1 1)|]. split; [apply scalar_posdef; lra|]. split; [reflexivity|]. split; [reflexivity|]. split; [exact HC|]. split; [exact HC|]. split; [exact settled2|].
  intros ldetP ldetF.
  assert (B : (bound 1 2 1 1 1 1 1 one one ldetP ldetF (two (pick 2 0)) (o_lmda q2) (fun d k => o_nu q2 d k * o_nu q2 d k) (fun _ => 0) (fun d k => derive_xi (o_lmda q2 d k) (o_nu q2 d k) 0) + 7 / 8
   = bound 1 2 1 1 1 1 1 one one ldetP ldetF (two (pick 0 (3 / 2))) (o_lmda q2) (fun d k => o_nu q2 d k * o_nu q2 d k) (fun _ => 0) (fun d k => derive_xi (o_lmda q2 d k) (o_nu q2 d k) 0))%R).
  { unfold bound. cbn [two o_A o_varA o_V o_varV o_U o_vocab]. unfold misfit, squares, quad, pick, eye, none, vsum. cbn. lra. }
  split; [lra|].
  destruct (C283_printed 1 2 1 1 1 (1 / 2) 1 1 ldetP ldetF one one ltac:(lia) ltac:(lra) ltac:(intros; unfold one; lra)) as [c E].
  rewrite !E; try lra; try exact HC; try exact settled2.
  assert (X1 : (excess 1 2 1 1 1 1 one (two (pick 2 0)) q2 = 0)%R) by (unfold excess, trace2, quad, gram, two, pick, varA2, eye, q2, one, vsum; cbn; field).
  assert (X2 : (excess 1 2 1 1 1 1 one (two (pick 0 (3 / 2))) q2 = - (9 / 4))%R) by (unfold excess, trace2, quad, gram, two, pick, varA2, eye, q2, one, vsum; cbn; field).
  rewrite X1, X2. lra.
Qed.
Example C283_case : settled 1 1 q2 /\ common 1 1 1 (1 / 2) one (o_vocab (two one)).
Proof. split; [exact settled2|]. intros k t _ _. cbn. unfold one. lra. Qed.

Print Assumptions C283_printed.
Print Assumptions C283_order_refuted.
