(** * The bounds of the compiled models: lda_vb.py, lda_cvb.py and lda_cvb0.py. *)
From Coq Require Import List Reals ZArith Arith Bool Lra Lia.
From Verif Require Import Base RealModel RealProofs VbModel VbProofs VbFastModel BoundSpec BoundProofs GammaProofs BoundModel BoundMore.
Import ListNotations.
Open Scope nat_scope.

(** ** Sums over positions *)
Lemma combine_app {A B} (l l' : list A) (r r' : list B) : length l = length r -> combine (l ++ l') (r ++ r') = combine l r ++ combine l' r'.
Proof.
  revert r. induction l as [|x l IH]; intros [|y r] H; try discriminate; [reflexivity|]. cbn [app combine]. f_equal. apply IH. injection H as H. exact H.
Qed.
Lemma combine_flat_map {A B C} (f : A -> list B) (h : A -> list C) l : (forall x, length (f x) = length (h x)) ->
  combine (flat_map f l) (flat_map h l) = flat_map (fun x => combine (f x) (h x)) l.
Proof. intros H. induction l as [|x l IH]; [reflexivity|]. cbn [flat_map]. rewrite combine_app by apply H. f_equal. exact IH. Qed.
Lemma flat_map_len {A B C} (f : A -> list B) (h : A -> list C) l : (forall x, length (f x) = length (h x)) -> length (flat_map f l) = length (flat_map h l).
Proof. intros H. induction l as [|x l IH]; [reflexivity|]. cbn [flat_map]. rewrite !app_length, H, IH. reflexivity. Qed.

Section Pos.
  Context (D : nat) (W : nat -> nat -> nat) (lens : nat -> nat) (q : nat -> nat -> vec).
  Notation tk := (positions D W lens).
  Notation qs := (at_positions D q lens).
  Lemma pos_combine : combine tk qs = flat_map (fun d => map (fun n => ((d, W d n), q d n)) (seq 0 (lens d))) (seq 0 D).
  Proof.
    unfold positions, at_positions. rewrite combine_flat_map by (intros; rewrite !map_length; reflexivity).
    apply flat_map_ext. intros d. apply combine_map_lr.
  Qed.
  Lemma pos_len : length tk = length qs.
  Proof. apply flat_map_len. intros. rewrite !map_length. reflexivity. Qed.
  Lemma pos_proper K : (forall d n, d < D -> n < lens d -> proper K (q d n)) -> Forall (proper K) qs.
  Proof.
    intros H. apply Forall_forall. intros x Hx. apply in_flat_map in Hx as (d & Hd & Hx). apply in_map_iff in Hx as (n & <- & Hn).
    apply in_seq in Hd. apply in_seq in Hn. apply H; lia.
  Qed.
  Lemma pos_in e : In e tk -> exists d n, d < D /\ n < lens d /\ e = (d, W d n).
  Proof.
    intros Hx. apply in_flat_map in Hx as (d & Hd & Hx). apply in_map_iff in Hx as (n & <- & Hn).
    apply in_seq in Hd. apply in_seq in Hn. exists d, n. repeat split; lia.
  Qed.
  Lemma pos_sum (f : token * vec -> R) : rsum (map f (combine tk qs)) = vsum D (fun d => vsum (lens d) (fun n => f ((d, W d n), q d n))).
  Proof.
    rewrite pos_combine, rsum_flat_map. unfold vsum. apply rsum_ext. intros d _. rewrite map_map. reflexivity.
  Qed.
  Lemma pos_doc d k : d < D -> e_doc tk qs d k = vsum (lens d) (fun n => q d n k).
  Proof.
    intros Hd. unfold e_doc.
    rewrite (rsum_ext _ (fun e => if fst (fst e) =? d then snd e k else 0%R)) by (intros [[d' t'] v] _; reflexivity).
    rewrite pos_sum. cbn [fst snd].
    rewrite (vsum_ext D _ (fun d' => 1 * (if d' =? d then vsum (lens d) (fun n => q d n k) else 0))%R).
    - rewrite (vsum_pick D (fun _ => 1%R) d _ Hd). ring.
    - intros d' _. destruct (Nat.eqb_spec d' d) as [->|N]; [ring|]. rewrite vsum_0'. ring.
  Qed.
  Lemma pos_word k t : e_word tk qs k t = vsum D (fun d => vsum (lens d) (fun n => if W d n =? t then q d n k else 0%R)).
  Proof.
    unfold e_word.
    rewrite (rsum_ext _ (fun e => if snd (fst e) =? t then snd e k else 0%R)) by (intros [[d' t'] v] _; reflexivity).
    apply pos_sum.
  Qed.
  Lemma pos_ents K : ents K qs = vsum D (fun d => vsum (lens d) (fun n => entropy K (q d n))).
  Proof.
    unfold ents, at_positions. rewrite rsum_flat_map. unfold vsum. apply rsum_ext. intros d _. rewrite map_map. reflexivity.
  Qed.
End Pos.

(** ** The lower bound of distributions is above the bounds that approximate it. *)
Section Lower.
  Context (g psi : R -> R) (CV : dirichlet_convex g psi) (D K T : nat) (alpha eta : vec).
  Context (PA : forall k, k < K -> (0 < alpha k)%R) (PE : forall t, t < T -> (0 < eta t)%R).
  Lemma lower_bound_le tk qs : length tk = length qs -> Forall (proper K) qs ->
    (lower_bound g D K T alpha eta tk qs <= ln (evidence g D K T alpha eta tk))%R.
  Proof. intros L F. unfold lower_bound, evidence. rewrite L. apply Ex_elbo, F. Qed.
  Lemma elbo_lower tk qs gam lam : length tk = length qs -> Forall (proper K) qs ->
    (forall d k, d < D -> k < K -> (0 < gam d k)%R) -> (forall k t, k < K -> t < T -> (0 < lam k t)%R) ->
    (elbo g psi D K T alpha eta gam lam (e_doc tk qs) (e_word tk qs) + ents K qs <= lower_bound g D K T alpha eta tk qs)%R.
  Proof.
    intros L F PG PL. unfold lower_bound. apply Rplus_le_compat_r.
    assert (E : elbo g psi D K T alpha eta gam lam (e_doc tk qs) (e_word tk qs) =
                Ex K qs (fun a => elbo g psi D K T alpha eta gam lam (n_doc tk a) (n_word tk a))).
    { unfold elbo. rewrite Ex_plus. f_equal; rewrite Ex_vsum; apply vsum_ext; intros i Hi; unfold Rminus; rewrite Ex_plus, Ex_const by exact F;
        f_equal; symmetry; apply Ex_tangent; try exact F; intros j Hj; [apply Ex_n_doc|apply Ex_n_word]; assumption. }
    rewrite E. apply Ex_mono; [exact F|]. intros a. unfold elbo, joint. apply Rplus_le_compat; apply vsum_le; intros i Hi; apply Rplus_le_compat_r; apply CV; auto; intros j Hj.
    - specialize (PA j Hj). pose proof (n_doc_nonneg tk a i j). lra.
    - specialize (PE j Hj). pose proof (n_word_nonneg tk a i j). lra.
  Qed.
End Lower.

(** ** Entropy *)
Lemma entropy_nonneg K q : proper K q -> (forall k, k < K -> (0 < q k)%R) -> (0 <= entropy K q)%R.
Proof.
  intros [_ S] P. unfold entropy. assert (vsum K (fun k => q k * ln (q k)) <= vsum K (fun _ => 0))%R; [|rewrite vsum_0' in H; lra].
  apply vsum_le. intros k Hk. pose proof (P k Hk) as Pk.
  assert (q k <= 1)%R by (rewrite <- S; apply (vsum_in_le K q k); [intros; left; apply P; assumption|exact Hk]).
  assert (ln (q k) <= 0)%R by (rewrite <- ln_1; destruct H; [left; apply ln_increasing; assumption|right; rewrite H; reflexivity]).
  pose proof (Rmult_le_compat_l (q k) _ _ ltac:(lra) H0). lra.
Qed.
Lemma jagged_is K D z lens : jagged_entropy K D z lens = vsum D (fun d => vsum (lens d) (fun n => entropy K (z d n))).
Proof.
  unfold jagged_entropy.
  assert (A : forall (f : nat -> R) l e, fold_left (fun e k => e - f k)%R l e = (e - rsum (map f l))%R).
  { intros f. induction l as [|x l IH]; intros e; cbn [fold_left map rsum]; [ring|]. rewrite IH. ring. }
  assert (B : forall (f : nat -> R -> R) (h : nat -> R) l e, (forall i e, f i e = e + h i)%R -> fold_left (fun e i => f i e) l e = (e + rsum (map h l))%R).
  { intros f h l. induction l as [|x l IH]; intros e H; cbn [fold_left map rsum]; [ring|]. rewrite IH by exact H. rewrite H. ring. }
  rewrite (B (fun d e => fold_left (fun e n => fold_left (fun e k => e - z d n k * ln (z d n k))%R (seq 0 K) e) (seq 0 (lens d)) e)
             (fun d => vsum (lens d) (fun n => entropy K (z d n)))); [unfold vsum; ring|].
  intros d e. rewrite (B (fun n e => fold_left (fun e k => e - z d n k * ln (z d n k))%R (seq 0 K) e) (fun n => entropy K (z d n))); [reflexivity|].
  intros n e'. rewrite (A (fun k => z d n k * ln (z d n k))%R). unfold entropy, vsum. ring.
Qed.

(** ** The collapsed bounds *)
Section Cvb.
  Context (g psi : R -> R) (CV : dirichlet_convex g psi) (D K T : nat) (alpha : vec) (b : R).
  Context (PA : forall k, k < K -> (0 < alpha k)%R) (PB : (0 < b)%R).
  Context (W : nat -> nat -> nat) (lens : nat -> nat) (z : nat -> nat -> vec).
  Context (HW : forall d n, d < D -> n < lens d -> W d n < T).
  Context (HZ : forall d n, d < D -> n < lens d -> proper K (z d n)).
  Notation tk := (positions D W lens).
  Notation qs := (at_positions D z lens).
  Notation eta := (fun _ : nat => b).

  Lemma cvb_is n_dk n_kt n_k :
    (forall d k, d < D -> k < K -> n_dk d k = vsum (lens d) (fun n => z d n k)) ->
    (forall k t, k < K -> t < T -> n_kt k t = vsum D (fun d => vsum (lens d) (fun n => if W d n =? t then z d n k else 0%R))) ->
    (forall k, k < K -> n_k k = vsum T (n_kt k)) ->
    var_bound_cvb g K T D lens alpha b n_dk n_kt n_k z =
    (elbo g psi D K T alpha eta (fun d k => alpha k + n_dk d k) (fun k t => b + n_kt k t) (e_doc tk qs) (e_word tk qs) - ents K qs)%R.
  Proof.
    intros HN HM HS. unfold var_bound_cvb. rewrite jagged_is, pos_ents. unfold elbo.
    rewrite (vsum_ext D (fun d => tangent g psi K (fun k => alpha k + n_dk d k) (fun k => alpha k + e_doc tk qs d k) - lnB g K alpha)%R
      (fun d => vsum K (fun k => g (alpha k + n_dk d k)) + (-1 * g (vsum K alpha + INR (lens d)) + (g (vsum K alpha) - vsum K (fun k => g (alpha k)))))%R).
    2:{ intros d Hd. assert (E : tangent g psi K (fun k => alpha k + n_dk d k)%R (fun k => alpha k + e_doc tk qs d k)%R = lnB g K (fun k => alpha k + n_dk d k)%R).
        { unfold tangent. rewrite vsum_0; [ring|]. intros k Hk. rewrite pos_doc by exact Hd. rewrite (HN d k Hd Hk). ring. }
        rewrite E. unfold lnB.
        replace (vsum K (fun k => alpha k + n_dk d k)%R) with (vsum K alpha + INR (lens d))%R; [ring|].
        rewrite vsum_plus. f_equal. rewrite (vsum_ext K _ _ (fun k Hk => HN d k Hd Hk)), vsum_swap.
        rewrite <- (Rmult_1_r (INR (lens d))), <- vsum_const. apply vsum_ext. intros n Hn. symmetry. apply (HZ d n Hd Hn). }
    rewrite (vsum_ext K (fun k => tangent g psi T (fun t => b + n_kt k t) (fun t => b + e_word tk qs k t) - lnB g T eta)%R
      (fun k => vsum T (fun t => g (b + n_kt k t)) + (-1 * g (INR T * b + n_k k) + (g (INR T * b) - INR T * g b)))%R).
    2:{ intros k Hk. assert (E : tangent g psi T (fun t => b + n_kt k t)%R (fun t => b + e_word tk qs k t)%R = lnB g T (fun t => b + n_kt k t)%R).
        { unfold tangent. rewrite vsum_0; [ring|]. intros t Ht. rewrite pos_word. rewrite (HM k t Hk Ht). ring. }
        rewrite E. unfold lnB. rewrite !vsum_const, vsum_plus, vsum_const, (HS k Hk). ring. }
    rewrite !vsum_plus, !vsum_scale, !vsum_const. ring.
  Qed.

  Lemma cvb_below n_dk n_kt n_k :
    (forall d k, d < D -> k < K -> n_dk d k = vsum (lens d) (fun n => z d n k)) ->
    (forall k t, k < K -> t < T -> n_kt k t = vsum D (fun d => vsum (lens d) (fun n => if W d n =? t then z d n k else 0%R))) ->
    (forall k, k < K -> n_k k = vsum T (n_kt k)) ->
    (var_bound_cvb g K T D lens alpha b n_dk n_kt n_k z + 2 * ents K qs <= lower_bound g D K T alpha eta tk qs)%R.
  Proof.
    intros HN HM HS. rewrite (cvb_is n_dk n_kt n_k HN HM HS).
    pose proof (elbo_lower g psi CV D K T alpha eta PA ltac:(intros; exact PB) tk qs (fun d k => alpha k + n_dk d k)%R (fun k t => b + n_kt k t)%R
      (pos_len D W lens z) (pos_proper D W lens z K HZ)) as H.
    assert (H' := H ltac:(intros d k Hd Hk; cbv beta; rewrite (HN d k Hd Hk); specialize (PA k Hk);
       assert (0 <= vsum (lens d) (fun n => z d n k))%R by (apply vsum_nonneg; intros n Hn; apply (HZ d n Hd Hn), Hk); lra)
      ltac:(intros k t Hk Ht; cbv beta; rewrite (HM k t Hk Ht);
       assert (0 <= vsum D (fun d => vsum (lens d) (fun n => if W d n =? t then z d n k else 0)))%R
         by (apply vsum_nonneg; intros d Hd; apply vsum_nonneg; intros n Hn; destruct (_ =? _); [apply (HZ d n Hd Hn), Hk|lra]); lra)).
    lra.
  Qed.
End Cvb.

(** ** The bound of lda_vb.py *)
Section Fast.
  Context (g psi : R -> R) (G : gamma_like g) (CX : convex g) (DV : forall x, (0 < x)%R -> derivable_pt_lim g x (psi x)).
  Lemma above_tangent x y : (0 < x)%R -> (0 < y)%R -> (g x + psi x * (y - x) <= g y)%R.
  Proof.
    intros Hx Hy. apply Rnot_lt_le. intros H. set (e := (g x + psi x * (y - x) - g y)%R). assert (He : (0 < e)%R) by (unfold e; lra).
    destruct (along g psi DV x (y - x) Hx e He) as [d Hd]. set (h := Rmin (d / 2) (1 / 2)).
    assert (Ph : (0 < h)%R) by (apply Rmin_pos; [pose proof (cond_pos d); lra|lra]).
    assert (Hh1 : (h <= 1 / 2)%R) by apply Rmin_r. assert (Hh2 : (h <= d / 2)%R) by apply Rmin_l.
    pose proof (cond_pos d) as Pd. specialize (Hd h ltac:(lra) ltac:(rewrite Rabs_right; lra)).
    rewrite Rplus_0_l, Rmult_0_l, Rplus_0_r in Hd. pose proof (CX x y h Hx Hy ltac:(lra)) as PC.
    replace ((1 - h) * x + h * y)%R with (x + h * (y - x))%R in PC by ring.
    assert ((g (x + h * (y - x)) - g x) / h <= g y - g x)%R.
    { apply (Rmult_le_reg_r h); [exact Ph|]. unfold Rdiv. rewrite Rmult_assoc, Rinv_l by lra. lra. }
    apply Rabs_def2 in Hd. unfold e in Hd. lra.
  Qed.
  Lemma psi_mono x y : (0 < x <= y)%R -> (psi x <= psi y)%R.
  Proof.
    intros [Hx [H|E]]; [|rewrite E; lra]. pose proof (above_tangent x y Hx ltac:(lra)). pose proof (above_tangent y x ltac:(lra) Hx).
    apply (Rmult_le_reg_r (y - x)); lra.
  Qed.

  Context (D K T : nat) (alpha : vec) (b : R) (HK : 0 < K) (HT : 0 < T).
  Context (PA : forall k, k < K -> (0 < alpha k)%R) (PB : (0 < b)%R).
  Context (W : nat -> nat -> nat) (lens : nat -> nat).
  Context (HW : forall d n, d < D -> n < lens d -> W d n < T).
  Notation eta := (fun _ : nat => b).

  Lemma elbo_lin gam lam N M : elbo g psi D K T alpha eta gam lam N M =
    (elbo g psi D K T alpha eta gam lam (fun _ _ => 0%R) (fun _ _ => 0%R) +
     vsum D (fun d => vsum K (fun k => (psi (gam d k) - psi (vsum K (gam d))) * N d k)) +
     vsum K (fun k => vsum T (fun t => (psi (lam k t) - psi (vsum T (lam k))) * M k t)))%R.
  Proof.
    pose proof (elbo_linear psi g K T (repeat [] D) alpha eta gam lam N M) as H. unfold konst in H. rewrite repeat_length in H. exact H.
  Qed.
  Lemma others_is gam lam : fast_others psi g K T D alpha b gam lam = elbo g psi D K T alpha eta gam lam (fun _ _ => 0%R) (fun _ _ => 0%R).
  Proof.
    assert (A : forall n v w, (tangent g psi n v (fun i => w i + 0) - lnB g n w)%R =
      ((g (vsum n w) - vsum n (fun i => g (w i))) + (vsum n (fun i => (w i - 1) * (psi (v i) - psi (vsum n v))) +
       (-1 * (g (vsum n v)) + (vsum n (fun i => g (v i)) + -1 * vsum n (fun i => (v i - 1) * (psi (v i) - psi (vsum n v)))))))%R).
    { intros n v w. unfold tangent, lnB.
      rewrite (vsum_ext n (fun i => (psi (v i) - psi (vsum n v)) * (w i + 0 - v i))%R
        (fun i => (w i - 1) * (psi (v i) - psi (vsum n v)) + -1 * ((v i - 1) * (psi (v i) - psi (vsum n v))))%R) by (intros; ring).
      rewrite vsum_plus, vsum_scale. ring. }
    unfold elbo. rewrite (vsum_ext D _ _ (fun d _ => A K (gam d) alpha)), (vsum_ext K _ _ (fun k _ => A T (lam k) eta)).
    unfold fast_others. cbv zeta. rewrite !vsum_plus, !vsum_const, !vsum_scale.
    replace (vsum K (fun i => vsum T (fun i0 => (b - 1) * (psi (lam i i0) - psi (vsum T (lam i)))))%R)
      with ((b - 1) * vsum K (fun k => vsum T (fun t => psi (lam k t) - psi (vsum T (lam k)))))%R
      by (rewrite <- vsum_scale; apply vsum_ext; intros; rewrite vsum_scale; reflexivity).
    ring.
  Qed.

  Lemma softmax_vec_proper v : proper K (softmax_vec K v) /\ forall k, k < K -> (0 < softmax_vec K v k)%R.
  Proof. split; [apply (soft_proper K v HK)|intros; apply (soft_pos K v k HK)]. Qed.

  Lemma fast_below maxN s zm : (forall d, d < D -> lens d <= maxN) ->
    (forall d k, d < D -> k < K -> (0 < v_topics s d k)%R) -> (forall k t, k < K -> t < T -> (0 < v_vocab s k t)%R) ->
    exists q, (forall d n, d < D -> n < lens d -> proper K (q d n)) /\
      (var_bound_fast psi g K T D W lens alpha b maxN s zm <= lower_bound g D K T alpha eta (positions D W lens) (at_positions D q lens))%R.
  Proof.
    intros HL PG PV. set (gam := v_topics s). set (lam := norm_rows T (v_vocab s)).
    assert (PL : forall k t, k < K -> t < T -> (0 < lam k t)%R).
    { intros k t Hk Ht. unfold lam, norm_rows. apply Rdiv_lt_0_compat; [apply PV; assumption|]. apply vsum_pos; [exact HT|]. intros; apply PV; assumption. }
    set (q := fun d n => softmax_vec K (fun k => (ln (lam k (W d n)) + psi (gam d k))%R)).
    assert (PQ : forall d n, proper K (q d n)) by (intros; apply softmax_vec_proper).
    exists q. split; [intros; apply PQ|].
    set (F := fun d => (vsum (lens d) (fun n => vsum K (fun k => q d n k * (psi (gam d k) - psi (vsum K (gam d))))) +
                        vsum (lens d) (fun n => vsum K (fun k => q d n k * (psi (lam k (W d n)) - psi (vsum T (lam k))))) +
                        vsum (lens d) (fun n => entropy K (q d n)))%R).
    assert (B : forall d z, d < D -> (bound_doc psi K T W lens maxN gam lam d (bound_rows psi K W lens gam lam d z) <= F d)%R).
    { intros d z Hd. unfold bound_doc. cbv zeta. unfold F.
      assert (R1 : forall n, n < lens d -> bound_rows psi K W lens gam lam d z n = q d n).
      { intros n Hn. unfold bound_rows. rewrite (proj2 (Nat.ltb_lt n (lens d)) Hn). reflexivity. }
      assert (R2 : forall f h : R -> R -> R, rsum (map (fun n => rsum (map (fun k => bound_rows psi K W lens gam lam d z n k *
        (psi (lam k (W d n)) - psi (vsum T (lam k))))%R (seq 0 K))) (seq 0 (lens d))) =
        vsum (lens d) (fun n => vsum K (fun k => q d n k * (psi (lam k (W d n)) - psi (vsum T (lam k))))%R)).
      { intros _ _. apply rsum_ext. intros n Hn. apply in_seq in Hn. rewrite R1 by lia. reflexivity. }
      specialize (R2 Rplus Rplus).
      assert (R3 : rsum (map (fun n => rsum (map (fun k => bound_rows psi K W lens gam lam d z n k * ln (bound_rows psi K W lens gam lam d z n k))%R (seq 0 K))) (seq 0 (lens d))) =
        (- vsum (lens d) (fun n => entropy K (q d n)))%R).
      { transitivity (vsum (lens d) (fun n => -1 * entropy K (q d n))%R); [|rewrite vsum_scale; ring].
        apply rsum_ext. intros n Hn. apply in_seq in Hn. rewrite R1 by lia. unfold entropy, vsum. ring. }
      rewrite R2, R3.
      assert (R4 : (rsum (map (fun n => rsum (map (fun k => bound_rows psi K W lens gam lam d z n k * (psi (gam d k) - psi (vsum K (gam d))))%R (seq 0 K))) (seq 0 maxN)) <=
        vsum (lens d) (fun n => vsum K (fun k => q d n k * (psi (gam d k) - psi (vsum K (gam d))))%R))%R).
      { replace maxN with (lens d + (maxN - lens d)) by (specialize (HL d Hd); lia). rewrite seq_app, map_app, rsum_app.
        rewrite <- (Rplus_0_r (vsum (lens d) _)). apply Rplus_le_compat.
        - right. apply rsum_ext. intros n Hn. apply in_seq in Hn. rewrite R1 by lia. reflexivity.
        - assert (Z : forall l, (forall n, In n l -> lens d <= n) -> (rsum (map (fun n => rsum (map (fun k => bound_rows psi K W lens gam lam d z n k * (psi (gam d k) - psi (vsum K (gam d))))%R (seq 0 K))) l) <= 0)%R).
          { induction l as [|n l IH]; intros Hl; cbn [map rsum]; [lra|]. specialize (IH ltac:(intros; apply Hl; right; assumption)).
            assert (vsum K (fun k => bound_rows psi K W lens gam lam d z n k * (psi (gam d k) - psi (vsum K (gam d)))) <= vsum K (fun _ => 0))%R.
            { apply vsum_le. intros k Hk. assert (0 < bound_rows psi K W lens gam lam d z n k)%R by (apply softmax_vec_proper, Hk).
              assert (psi (gam d k) <= psi (vsum K (gam d)))%R.
              { apply psi_mono. split; [apply PG; assumption|]. apply (vsum_in_le K (gam d) k); [intros; left; apply PG; assumption|exact Hk]. }
              assert (bound_rows psi K W lens gam lam d z n k * (psi (gam d k) - psi (vsum K (gam d))) <= bound_rows psi K W lens gam lam d z n k * 0)%R by (apply Rmult_le_compat_l; lra). lra. }
            rewrite vsum_0' in H. unfold vsum in H at 1. lra. }
          apply Z. intros n Hn. apply in_seq in Hn. lia. }
      lra. }
    eapply Rle_trans; [|apply (elbo_lower g psi (log_gamma_convex g G CX psi DV) D K T alpha eta PA ltac:(intros; exact PB) (positions D W lens) (at_positions D q lens) gam lam
        (pos_len D W lens q) (pos_proper D W lens q K ltac:(intros; apply PQ)) PG PL)].
    unfold var_bound_fast, var_bound. fold gam lam. rewrite others_is, (elbo_lin gam lam (e_doc (positions D W lens) (at_positions D q lens)) (e_word (positions D W lens) (at_positions D q lens))), !Rplus_assoc. apply Rplus_le_compat_l.
    assert (S : forall l b0 z, (forall d, In d l -> d < D) ->
      (fst (fold_left (fun bz d => let z' := bound_rows psi K W lens gam lam d (snd bz) in (fst bz + bound_doc psi K T W lens maxN gam lam d z', z')%R) l (b0, z)) <=
       b0 + rsum (map F l))%R).
    { induction l as [|d l IH]; intros b0 z Hl; cbn [fold_left map rsum fst snd]; [lra|]. cbv zeta.
      eapply Rle_trans; [apply IH; intros; apply Hl; right; assumption|]. pose proof (B d z (Hl d (or_introl eq_refl))). lra. }
    unfold bound_of_tokens. eapply Rle_trans; [apply S; intros d Hd; apply in_seq in Hd; lia|]. rewrite Rplus_0_l. right.
    change (rsum (map F (seq 0 D))) with (vsum D F). unfold F. rewrite !vsum_plus, Rplus_assoc, pos_ents. f_equal; [|f_equal].
    - apply vsum_ext. intros d Hd. rewrite vsum_swap. apply vsum_ext. intros k _. rewrite pos_doc by exact Hd. rewrite <- vsum_scale. apply vsum_ext. intros; ring.
    - transitivity (vsum D (fun d => vsum K (fun k => vsum (lens d) (fun n => q d n k * (psi (lam k (W d n)) - psi (vsum T (lam k)))))%R)); [apply vsum_ext; intros; apply vsum_swap|].
      rewrite vsum_swap. apply vsum_ext. intros k Hk.
      transitivity (vsum T (fun t => vsum D (fun d => vsum (lens d) (fun n => (psi (lam k t) - psi (vsum T (lam k))) * (if t =? W d n then q d n k else 0))))%R).
      + rewrite vsum_swap. apply vsum_ext. intros d Hd. rewrite vsum_swap. apply vsum_ext. intros n Hn.
        rewrite (vsum_pick T (fun t => psi (lam k t) - psi (vsum T (lam k)))%R (W d n) _ (HW d n Hd Hn)). ring.
      + apply vsum_ext. intros t _. rewrite pos_word, <- vsum_scale. apply vsum_ext. intros d _. rewrite <- vsum_scale. apply vsum_ext. intros n _.
        rewrite Nat.eqb_sym. reflexivity.
  Qed.
End Fast.
