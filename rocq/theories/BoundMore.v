(** * The bound of lda_vb_python.py: what it is, and how training moves it. *)
From Coq Require Import List Reals ZArith Arith Bool Lra Lia.
From Verif Require Import Base RealModel RealProofs MixModel MixProofs MixProps VbModel VbProofs BoundSpec BoundProofs BoundModel.
Import ListNotations.
Open Scope nat_scope.

Lemma rsum_vsum {A} K (f : nat -> A -> R) (l : list A) : vsum K (fun k => rsum (map (f k) l)) = rsum (map (fun x => vsum K (fun k => f k x)) l).
Proof. unfold vsum. apply (rsum_swap (fun k x => f k x)). Qed.
Lemma combine_map_r {A B} (g : A -> B) l : combine l (map g l) = map (fun e => (e, g e)) l.
Proof. induction l as [|x l IH]; [reflexivity|]. cbn [map combine]. f_equal. exact IH. Qed.
Lemma combine_map_lr {A B C} (f : A -> B) (g : A -> C) l : combine (map f l) (map g l) = map (fun e => (f e, g e)) l.
Proof. induction l as [|x l IH]; [reflexivity|]. cbn [map combine]. f_equal. exact IH. Qed.
Lemma nth_map_lt {A B} (f : A -> B) l n d d' : n < length l -> nth n (map f l) d' = f (nth n l d).
Proof. intros H. rewrite (nth_indep _ d' (f d)) by (rewrite map_length; exact H). apply map_nth. Qed.
Lemma get_nth {A} (l : list A) i d : i < length l -> get_ l i = Ok (nth i l d).
Proof. intros H. unfold get_. rewrite (nth_error_nth' l d H). reflexivity. Qed.
Lemma vsum_0' n : vsum n (fun _ => 0%R) = 0%R.
Proof. apply vsum_0. reflexivity. Qed.

(** ** The logarithm that substitutes. *)
Definition slog (a x : R) : R := if rleb a x then ln x else ln a.
Lemma slog_ge a x : (0 < a)%R -> (0 < x)%R -> (ln x <= slog a x)%R.
Proof.
  intros Ha Hx. unfold slog, rleb. destruct (Rle_dec a x); [lra|]. left. apply ln_increasing; lra.
Qed.
Lemma slog_close a x : (0 < a)%R -> (0 < x)%R -> (x * (slog a x - ln x) <= a)%R.
Proof.
  intros Ha Hx. unfold slog, rleb. destruct (Rle_dec a x); [rewrite Rminus_diag_eq by reflexivity; lra|].
  pose proof (ln_le_sub1 (a / x) ltac:(apply Rdiv_lt_0_compat; lra)) as L. unfold Rdiv in L at 1.
  rewrite ln_mult, ln_Rinv in L; try lra; [|apply Rinv_0_lt_compat; lra].
  apply (Rmult_le_compat_l x) in L; [|lra]. replace (x * (a / x - 1))%R with (a - x)%R in L by (field; lra). lra.
Qed.
Lemma slog_id a x : (a <= x)%R -> slog a x = ln x.
Proof. intros H. unfold slog, rleb. destruct (Rle_dec a x); [reflexivity|contradiction]. Qed.

Lemma soft_shift K s s' c k : (forall j, j < K -> s' j = (s j + c)%R) -> k < K -> soft K s' k = soft K s k.
Proof.
  intros H Hk. unfold soft. rewrite (vsum_ext K (fun k => exp (s' k)) (fun k => exp c * exp (s k))%R).
  2:{ intros j Hj. rewrite (H j Hj), exp_plus. ring. }
  rewrite vsum_scale, (H k Hk), exp_plus. assert (HK : 0 < K) by lia.
  assert (0 < vsum K (fun k => exp (s k)))%R by (apply vsum_pos; [exact HK|intros; apply exp_pos]). pose proof (exp_pos c). field. lra.
Qed.
Lemma softmax_of_nth K (s : vec) k : k < K -> nth k (softmax_of (map s (seq 0 K))) 0%R = soft K s k.
Proof.
  intros Hk. unfold softmax_of. rewrite map_map.
  rewrite (nth_map_lt _ (seq 0 K) k 0 0%R) by (rewrite seq_length; exact Hk). rewrite seq_nth by exact Hk. cbn [plus].
  unfold soft, vsum. rewrite map_map. reflexivity.
Qed.

Section Py.
  Context (psi g : R -> R) (K T : nat) (docs : list words) (prior eta : vec).
  Notation D := (length docs).
  Notation docn := (fun d => nth d docs []).

  Definition ec (gam : mat) (d k : nat) : R := (psi (gam d k) - psi (vsum K (gam d)))%R.
  Definition ew (lam : mat) (k t : nat) : R := (psi (lam k t) - psi (vsum T (lam k)))%R.
  Definition wsum (f : nat -> nat -> R) : R := vsum D (fun d => rsum (map (fun e => snd e * f d (fst e))%R (docn d))).
  Definition Nz (z : nat -> nat -> vec) (d k : nat) : R := rsum (map (fun e => snd e * z d (fst e) k)%R (docn d)).
  Definition Mz (z : nat -> nat -> vec) (k t : nat) : R :=
    vsum D (fun d => rsum (map (fun e => snd e * (if fst e =? t then z d (fst e) k else 0))%R (docn d))).
  Definition konst (gam lam : mat) : R := elbo g psi D K T prior eta gam lam (fun _ _ => 0%R) (fun _ _ => 0%R).
  Definition form (L : R -> R) (gam lam : mat) (z : nat -> nat -> vec) : R :=
    (konst gam lam + wsum (fun d t => vsum K (fun k => z d t k * (ec gam d k + ew lam k t - L (z d t k)))))%R.

  Lemma tangent_add n v w u : tangent g psi n v (fun i => w i + u i)%R =
    (tangent g psi n v (fun i => w i + 0)%R + vsum n (fun i => (psi (v i) - psi (vsum n v)) * u i))%R.
  Proof. unfold tangent. rewrite Rplus_assoc, <- vsum_plus. f_equal. apply vsum_ext. intros. ring. Qed.
  Lemma elbo_linear gam lam N M : elbo g psi D K T prior eta gam lam N M =
    (konst gam lam + vsum D (fun d => vsum K (fun k => ec gam d k * N d k)) + vsum K (fun k => vsum T (fun t => ew lam k t * M k t)))%R.
  Proof.
    unfold konst, elbo.
    rewrite (vsum_ext D _ (fun d => (tangent g psi K (gam d) (fun k => prior k + 0) - lnB g K prior) + vsum K (fun k => ec gam d k * N d k))%R)
      by (intros d _; rewrite tangent_add; unfold ec; ring).
    rewrite (vsum_ext K (fun k => tangent g psi T (lam k) (fun t => eta t + M k t) - lnB g T eta)%R
      (fun k => (tangent g psi T (lam k) (fun t => eta t + 0) - lnB g T eta) + vsum T (fun t => ew lam k t * M k t))%R)
      by (intros k _; rewrite tangent_add; unfold ew; ring).
    rewrite !vsum_plus. ring.
  Qed.

  Lemma wsum_plus f h : wsum (fun d t => f d t + h d t)%R = (wsum f + wsum h)%R.
  Proof.
    unfold wsum. rewrite <- vsum_plus. apply vsum_ext. intros d _. rewrite <- rsum_plus. apply rsum_ext. intros e _. ring.
  Qed.
  Lemma wsum_ext f h : (forall d e, d < D -> In e (docn d) -> f d (fst e) = h d (fst e)) -> wsum f = wsum h.
  Proof. intros H. apply vsum_ext. intros d Hd. apply rsum_ext. intros e He. f_equal. apply H; assumption. Qed.
  Lemma lin_doc (c : mat) z : vsum D (fun d => vsum K (fun k => c d k * Nz z d k))%R = wsum (fun d t => vsum K (fun k => z d t k * c d k)%R).
  Proof.
    apply vsum_ext. intros d _. unfold Nz.
    rewrite (vsum_ext K _ (fun k => rsum (map (fun e => c d k * (snd e * z d (fst e) k))%R (docn d)))).
    - rewrite rsum_vsum. apply rsum_ext. intros e _. rewrite <- vsum_scale. apply vsum_ext. intros. ring.
    - intros k _. rewrite <- rsum_scale, map_map. reflexivity.
  Qed.
  Lemma lin_word (c : mat) z : (forall d e, d < D -> In e (docn d) -> fst e < T) ->
    vsum K (fun k => vsum T (fun t => c k t * Mz z k t))%R = wsum (fun d t => vsum K (fun k => z d t k * c k t)%R).
  Proof.
    intros HT. unfold Mz, wsum.
    rewrite (vsum_ext K _ (fun k => vsum D (fun d => rsum (map (fun e => snd e * (z d (fst e) k * c k (fst e)))%R (docn d))))).
    - rewrite vsum_swap. apply vsum_ext. intros d _. rewrite rsum_vsum. apply rsum_ext. intros e _. apply vsum_scale.
    - intros k _. rewrite (vsum_ext T _ (fun t => vsum D (fun d => c k t * rsum (map (fun e => snd e * (if fst e =? t then z d (fst e) k else 0))%R (docn d)))%R))
        by (intros; rewrite vsum_scale; reflexivity).
      rewrite vsum_swap. apply vsum_ext. intros d Hd.
      rewrite (vsum_ext T _ (fun t => rsum (map (fun e => c k t * (snd e * (if fst e =? t then z d (fst e) k else 0)))%R (docn d))))
        by (intros; rewrite <- rsum_scale, map_map; reflexivity).
      rewrite rsum_vsum. apply rsum_ext. intros e He.
      transitivity (vsum T (fun t => (snd e * c k t) * (if t =? fst e then z d (fst e) k else 0))%R).
      + apply vsum_ext. intros t _. rewrite Nat.eqb_sym. ring.
      + rewrite (vsum_pick T (fun t => snd e * c k t)%R) by (apply (HT d); assumption). ring.
  Qed.

  Lemma form_elbo gam lam z : (forall d e, d < D -> In e (docn d) -> fst e < T) ->
    form ln gam lam z = (elbo g psi D K T prior eta gam lam (Nz z) (Mz z) + wsum (fun d t => entropy K (z d t)))%R.
  Proof.
    intros HT. rewrite elbo_linear, lin_doc, lin_word by exact HT. unfold form. rewrite !Rplus_assoc. f_equal.
    rewrite <- !wsum_plus. apply wsum_ext. intros d e _ _. unfold entropy.
    transitivity (vsum K (fun k => z d (fst e) k * ec gam d k + (z d (fst e) k * ew lam k (fst e) + -1 * (z d (fst e) k * ln (z d (fst e) k))))%R);
      [apply vsum_ext; intros; ring|]. rewrite !vsum_plus, vsum_scale. ring.
  Qed.

  (** ** The distributions used: the softmax, which maximises the bound. *)
  Definition zs (gam lam : mat) (d t : nat) : vec := soft K (fun k => psi (lam k t) - psi (vsum T (lam k)) + psi (gam d k))%R.
  Lemma zs_proper gam lam d t : 0 < K -> proper K (zs gam lam d t).
  Proof. apply soft_proper. Qed.
  Lemma zs_best gam lam d t q : 0 < K -> proper K q ->
    (vsum K (fun k => q k * (ec gam d k + ew lam k t - ln (q k))) <=
     vsum K (fun k => zs gam lam d t k * (ec gam d k + ew lam k t - ln (zs gam lam d t k))))%R.
  Proof.
    intros HK Q. pose proof (soft_best K (fun k => ec gam d k + ew lam k t)%R q HK Q) as H. cbv beta in H.
    eapply Rle_trans; [exact H|]. right. apply vsum_ext. intros k Hk.
    assert (E : soft K (fun k => ec gam d k + ew lam k t)%R k = zs gam lam d t k).
    { unfold zs. apply (soft_shift K _ _ (- psi (vsum K (gam d)))%R); [|exact Hk]. intros j _. unfold ec, ew. ring. }
    rewrite E. reflexivity.
  Qed.
  Lemma form_best gam lam z : 0 < K -> (forall d e, d < D -> In e (docn d) -> (0 <= snd e)%R) ->
    (forall d t, proper K (z d t)) -> (form ln gam lam z <= form ln gam lam (zs gam lam))%R.
  Proof.
    intros HK HX HZ. unfold form. apply Rplus_le_compat_l. apply vsum_le. intros d Hd.
    assert (G : forall l, (forall e, In e l -> (0 <= snd e)%R) ->
      (rsum (map (fun e => snd e * vsum K (fun k => z d (fst e) k * (ec gam d k + ew lam k (fst e) - ln (z d (fst e) k)))) l) <=
       rsum (map (fun e => snd e * vsum K (fun k => zs gam lam d (fst e) k * (ec gam d k + ew lam k (fst e) - ln (zs gam lam d (fst e) k)))) l))%R).
    { induction l as [|e l IH]; intros Hl; cbn [map rsum]; [lra|]. apply Rplus_le_compat; [|apply IH; intros; apply Hl; right; assumption].
      apply Rmult_le_compat_l; [apply Hl; left; reflexivity|]. apply zs_best; [exact HK|apply HZ]. }
    apply G. intros e He. apply (HX d); assumption.
  Qed.

  Lemma form_slog a gam lam z : (0 < a)%R -> (forall d e, d < D -> In e (docn d) -> (0 <= snd e)%R) ->
    (forall d t k, k < K -> (0 < z d t k)%R) ->
    (form (slog a) gam lam z <= form ln gam lam z <= form (slog a) gam lam z + INR K * a * vsum D (fun d => tokens (docn d)))%R.
  Proof.
    intros Ha HX HZ.
    assert (G : forall d l, (forall e, In e l -> (0 <= snd e)%R) ->
      let f L := rsum (map (fun e => snd e * vsum K (fun k => z d (fst e) k * (ec gam d k + ew lam k (fst e) - L (z d (fst e) k))))%R l) in
      (f (slog a) <= f ln <= f (slog a) + INR K * a * tokens l)%R).
    { intros d. induction l as [|e l IH]; intros Hl f; unfold f; cbn [map rsum].
      - unfold tokens. cbn [map rsum]. lra.
      - unfold tokens in *. cbn [map rsum]. specialize (IH ltac:(intros; apply Hl; right; assumption)). cbv zeta in IH.
        pose proof (Hl e (or_introl eq_refl)) as He.
        set (A := vsum K (fun k => z d (fst e) k * (ec gam d k + ew lam k (fst e) - slog a (z d (fst e) k)))%R).
        set (B := vsum K (fun k => z d (fst e) k * (ec gam d k + ew lam k (fst e) - ln (z d (fst e) k)))%R).
        assert (AB : (A <= B <= A + INR K * a)%R).
        { split.
          - apply vsum_le. intros k Hk. pose proof (HZ d (fst e) k Hk) as P. apply Rmult_le_compat_l; [lra|]. pose proof (slog_ge a _ Ha P). lra.
          - rewrite <- (vsum_const K a). unfold A. rewrite <- vsum_plus. apply vsum_le. intros k Hk. pose proof (HZ d (fst e) k Hk) as P.
            pose proof (slog_close a _ Ha P). lra. }
        pose proof (Rmult_le_compat_l (snd e) _ _ He (proj1 AB)). pose proof (Rmult_le_compat_l (snd e) _ _ He (proj2 AB)). lra. }
    unfold form, wsum. split.
    - apply Rplus_le_compat_l, vsum_le. intros d Hd. apply (G d). intros e He. apply (HX d); assumption.
    - rewrite Rplus_assoc. apply Rplus_le_compat_l. rewrite <- vsum_scale, <- vsum_plus. apply vsum_le. intros d Hd. apply (G d).
      intros e He. apply (HX d); assumption.
  Qed.

  (** ** The code computes this form. *)
  Lemma infer_is doc len mean diW diSum : 0 < K ->
    infer psi K doc len mean prior diW diSum = Ok (map (fun e => softmax_of (scores psi K len mean prior diW diSum (fst e))) doc).
  Proof.
    intros HK. unfold infer. induction doc as [|e doc IH]; [reflexivity|]. cbn [mapM map].
    rewrite softmax_row_spec by (unfold scores; destruct K; [lia|discriminate]). cbn [bind]. rewrite IH. reflexivity.
  Qed.
  Lemma z_is gam lam len d t k : k < K -> (len <> 0)%R ->
    nth k (softmax_of (scores psi K len (fun k => (gam d k - prior k) / len)%R prior (fun k t => psi (lam k t)) (fun k => psi (vsum T (lam k))) t)) 0%R
    = zs gam lam d t k.
  Proof.
    intros Hk Hl. unfold scores. rewrite softmax_of_nth by exact Hk. unfold zs. apply (soft_shift K _ _ 0%R); [|exact Hk].
    intros j _. replace (prior j + len * ((gam d j - prior j) / len))%R with (gam d j) by (field; exact Hl). ring.
  Qed.

  Lemma doc_bound_is a (doc : words) (zf : nat -> list R) ex exW : (forall t, length (zf t) = K) ->
    doc_bound K a doc (map (fun e => zf (fst e)) doc) ex exW =
    rsum (map (fun e => snd e * vsum K (fun k => nth k (zf (fst e)) 0 * (ex k + exW k (fst e) - slog a (nth k (zf (fst e)) 0))))%R doc).
  Proof.
    intros L. unfold doc_bound. rewrite combine_map_r.
    rewrite (vsum_ext K _ (fun k => rsum (map (fun e => nth k (zf (fst e)) 0 * ex k * snd e)%R doc)))
      by (intros; rewrite map_map; apply rsum_ext; intros [t x] _; reflexivity).
    rewrite (vsum_ext K (fun k => rsum (map _ (map (fun e => (e, zf (fst e))) doc))) (fun k => rsum (map (fun e => nth k (zf (fst e)) 0 * slog a (nth k (zf (fst e)) 0) * snd e)%R doc))).
    2:{ intros k Hk. rewrite map_map. apply rsum_ext. intros [t x] _. cbn [fst snd]. f_equal. f_equal. unfold safe_log.
        rewrite (nth_map_lt _ (zf t) k 0%R 0%R) by (rewrite L; exact Hk). reflexivity. }
    rewrite !rsum_vsum, map_map.
    assert (X : forall (A B C F : nat * R -> R), (forall e, F e = A e - B e + C e)%R ->
      (rsum (map A doc) - rsum (map B doc) + rsum (map C doc))%R = rsum (map F doc)).
    { intros A B C F H. induction doc as [|e l IH]; cbn [map rsum]; [ring|]. rewrite H, <- IH. ring. }
    apply X. intros [t x]. cbn [fst snd]. rewrite <- vsum_scale.
    transitivity (vsum K (fun k => nth k (zf t) 0 * ex k * x + (-1 * (nth k (zf t) 0 * slog a (nth k (zf t) 0) * x) + x * nth k (zf t) 0 * exW k t))%R).
    - apply vsum_ext. intros. ring.
    - rewrite !vsum_plus, vsum_scale. ring.
  Qed.

  Lemma konst_is (D0 : nat) : D0 = D -> forall gam lam pv wp, prob_vocabs psi g K T wp lam = Ok pv ->
    (wp = WVec eta \/ exists w, wp = WNum w /\ eta = fun _ => w) ->
    (prob_topics psi g K D0 prior gam + dirichlet_entropy psi g D0 K gam + pv + dirichlet_entropy psi g K T lam)%R = konst gam lam.
  Proof.
    intros -> gam lam pv wp E W.
    assert (A : forall n v w, (tangent g psi n v (fun i => w i + 0) - lnB g n w)%R =
      ((g (vsum n w) - vsum n (fun i => g (w i))) + vsum n (fun i => (w i - 1) * (psi (v i) - psi (vsum n v))) +
       ((vsum n (fun i => g (v i)) - g (vsum n v)) + (vsum n v - INR n) * psi (vsum n v) - vsum n (fun i => (v i - 1) * psi (v i))))%R).
    { intros n v w. unfold tangent, lnB.
      replace ((vsum n v - INR n) * psi (vsum n v))%R with (vsum n (fun i => (v i - 1) * psi (vsum n v)))%R.
      2:{ rewrite vsum_scale_r. f_equal. transitivity (vsum n (fun i => v i + -1)%R); [reflexivity|]. rewrite vsum_plus, vsum_const. ring. }
      transitivity ((g (vsum n w) - vsum n (fun i => g (w i))) + (vsum n (fun i => g (v i)) - g (vsum n v)) +
        vsum n (fun i => (w i - 1) * (psi (v i) - psi (vsum n v)) + ((v i - 1) * psi (vsum n v) + -1 * ((v i - 1) * psi (v i)))))%R.
      - rewrite (vsum_ext n (fun i => (psi (v i) - psi (vsum n v)) * (w i + 0 - v i))%R (fun i => (w i - 1) * (psi (v i) - psi (vsum n v)) + ((v i - 1) * psi (vsum n v) + -1 * ((v i - 1) * psi (v i))))%R) by (intros; ring). ring.
      - rewrite !vsum_plus, vsum_scale. ring. }
    unfold konst, elbo. rewrite (vsum_ext D _ _ (fun d _ => A K (gam d) prior)), (vsum_ext K _ _ (fun k _ => A T (lam k) eta)).
    rewrite !vsum_plus, !vsum_const. unfold prob_topics, dirichlet_entropy.
    assert (P : pv = (INR K * (g (vsum T eta) - vsum T (fun t => g (eta t))) + vsum K (fun k => vsum T (fun t => (eta t - 1) * (psi (lam k t) - psi (vsum T (lam k))))))%R).
    { destruct W as [->|(w & -> & ->)]; cbn [prob_vocabs] in E; injection E as <-; [reflexivity|]. rewrite !vsum_const. rewrite (Rmult_comm w). reflexivity. }
    rewrite P. ring.
  Qed.

  Lemma var_bound_is a docLens wp gam lam : 0 < K -> (forall d, d < D -> (docLens d <> 0)%R) ->
    (wp = WVec eta \/ exists w, wp = WNum w /\ eta = fun _ => w) ->
    var_bound_py psi g K T a docs docLens prior wp lam gam = Ok (form (slog a) gam lam (zs gam lam)).
  Proof.
    intros HK HL W. unfold var_bound_py.
    assert (exists pv, prob_vocabs psi g K T wp lam = Ok pv) as (pv & E) by (destruct W as [->|(w & -> & _)]; eexists; reflexivity).
    rewrite E. cbn [bind].
    assert (M : forall l, (forall d, In d l -> d < D) ->
      mapM (fun d => do doc <- get_ docs d;
        do z <- infer psi K doc (docLens d) (params_to_means docLens gam prior d) prior (fun k t => psi (lam k t)) (fun k => psi (vsum T (lam k)));
        Ok (doc_bound K a doc z (fun k => psi (gam d k) - psi (vsum K (gam d)))%R (fun k t => psi (lam k t) - psi (vsum T (lam k)))%R)) l =
      Ok (map (fun d => rsum (map (fun e => snd e * vsum K (fun k => zs gam lam d (fst e) k * (ec gam d k + ew lam k (fst e) - slog a (zs gam lam d (fst e) k))))%R (docn d))) l)).
    { induction l as [|d l IH]; intros Hl; [reflexivity|]. cbn [mapM map]. pose proof (Hl d (or_introl eq_refl)) as Hd.
      rewrite (get_nth docs d [] Hd). cbn [bind]. rewrite infer_is by exact HK. cbn [bind].
      rewrite (doc_bound_is a (docn d) (fun t => softmax_of (scores psi K (docLens d) (params_to_means docLens gam prior d) prior (fun k t => psi (lam k t)) (fun k => psi (vsum T (lam k))) t))).
      2:{ intros t. unfold softmax_of, scores. rewrite !map_length, seq_length. reflexivity. }
      rewrite IH by (intros; apply Hl; right; assumption). cbn [bind]. f_equal. f_equal. apply rsum_ext. intros e _. f_equal. apply vsum_ext. intros k Hk.
      unfold params_to_means. rewrite (z_is gam lam (docLens d) d (fst e) k Hk (HL d Hd)). reflexivity. }
    rewrite M by (intros d Hd; apply in_seq in Hd; lia). cbn [bind]. f_equal. rewrite (konst_is D eq_refl gam lam pv wp E W). reflexivity.
  Qed.
End Py.

(** ** Whole counts: the bound is below the evidence. *)
Lemma real_nth nd d : nth d (real_corpus nd) [] = map (fun e => (fst e, INR (snd e))) (nth d nd []).
Proof. unfold real_corpus. change (@nil (nat * R)) with (map (fun e : nat * nat => (fst e, INR (snd e))) []) at 1. apply map_nth. Qed.
Lemma rsum_repeat {A} (f : A -> R) x m : rsum (map f (repeat x m)) = (INR m * f x)%R.
Proof.
  induction m as [|m IH]; [cbn; ring|]. cbn [repeat map rsum]. rewrite IH, S_INR. ring.
Qed.
Lemma rsum_flat_map' {A B} (f : B -> R) (g : A -> list B) l : rsum (map f (flat_map g l)) = rsum (map (fun k => rsum (map f (g k))) l).
Proof. induction l as [|k l IH]; [reflexivity|]. cbn [flat_map map rsum]. rewrite map_app, rsum_app, IH. reflexivity. Qed.
Lemma tokens_sum nd f : rsum (map f (tokens_of nd)) = wsum (real_corpus nd) (fun d t => f (d, t)).
Proof.
  unfold tokens_of, wsum, vsum. rewrite rsum_flat_map'.
  replace (length (real_corpus nd)) with (length nd) by (symmetry; apply map_length). apply rsum_ext. intros d _.
  rewrite real_nth, rsum_flat_map', map_map. apply rsum_ext. intros e _. cbn [fst snd]. rewrite rsum_repeat. reflexivity.
Qed.
Lemma elbo_ext g psi D K T prior eta gam lam N N' M M' :
  (forall d k, d < D -> k < K -> N d k = N' d k) -> (forall k t, k < K -> t < T -> M k t = M' k t) ->
  elbo g psi D K T prior eta gam lam N M = elbo g psi D K T prior eta gam lam N' M'.
Proof.
  intros HN HM. unfold elbo, tangent. f_equal; apply vsum_ext; intros i Hi; do 2 f_equal; apply vsum_ext; intros j Hj.
  - rewrite (HN i j Hi Hj). reflexivity.
  - rewrite (HM i j Hi Hj). reflexivity.
Qed.

Lemma form_le psi g K T nd prior eta gam lam z : dirichlet_convex g psi ->
  (forall k, k < K -> (0 < prior k)%R) -> (forall t, t < T -> (0 < eta t)%R) ->
  (forall d k, d < length nd -> k < K -> (0 < gam d k)%R) -> (forall k t, k < K -> t < T -> (0 < lam k t)%R) ->
  (forall d t, proper K (z d t)) -> Forall (Forall (fun e => fst e < T)) nd ->
  (form psi g K T (real_corpus nd) prior eta ln gam lam z <= ln (evidence g (length nd) K T prior eta (tokens_of nd)))%R.
Proof.
  intros CV PA PE PG PL PZ HT.
  assert (LD : length (real_corpus nd) = length nd) by (unfold real_corpus; apply map_length).
  assert (HT' : forall d e, d < length (real_corpus nd) -> In e (nth d (real_corpus nd) []) -> fst e < T).
  { intros d e Hd He. rewrite LD in Hd. rewrite real_nth in He. apply in_map_iff in He as (e' & <- & He). cbn [fst].
    rewrite Forall_forall in HT. pose proof (HT _ (nth_In nd [] Hd)) as H. rewrite Forall_forall in H. apply H, He. }
  rewrite form_elbo by exact HT'. set (tk := tokens_of nd). set (qs := map (fun e => z (fst e) (snd e)) tk).
  rewrite LD. replace (wsum (real_corpus nd) (fun d t => entropy K (z d t))) with (ents K qs).
  2:{ unfold ents, qs. rewrite map_map. unfold tk. rewrite tokens_sum. reflexivity. }
  rewrite (elbo_ext g psi (length nd) K T prior eta gam lam _ (e_doc tk qs) _ (e_word tk qs)).
  - apply elbo_le; try assumption.
    + unfold qs. rewrite map_length. reflexivity.
    + unfold qs. apply Forall_forall. intros q Hq. apply in_map_iff in Hq as (e & <- & _). apply PZ.
  - intros d k Hd _. unfold e_doc, qs. assert (X : combine tk (map (fun e => z (fst e) (snd e)) tk) = map (fun e => (e, z (fst e) (snd e))) tk) by apply combine_map_r.
    rewrite X, map_map. rewrite (rsum_ext _ (fun e => if fst e =? d then z (fst e) (snd e) k else 0%R)) by (intros [d' t'] _; reflexivity).
    unfold tk. rewrite tokens_sum. unfold wsum, Nz. rewrite LD. cbn [fst snd].
    rewrite (vsum_ext (length nd) _ (fun d' => 1 * (if d' =? d then rsum (map (fun e => snd e * z d (fst e) k) (nth d (real_corpus nd) [])) else 0))%R).
    + rewrite (vsum_pick (length nd) (fun _ => 1%R) d _ Hd). ring.
    + intros d' _. destruct (Nat.eqb_spec d' d) as [->|N]; [ring|].
      transitivity 0%R; [|ring]. assert (Z : forall l : words, rsum (map (fun e => snd e * 0)%R l) = 0%R) by (induction l as [|e l IH]; cbn [map rsum]; [reflexivity|rewrite IH; ring]).
      apply Z.
  - intros k t _ _. unfold e_word, qs. assert (X : combine tk (map (fun e => z (fst e) (snd e)) tk) = map (fun e => (e, z (fst e) (snd e))) tk) by apply combine_map_r.
    rewrite X, map_map. rewrite (rsum_ext _ (fun e => if snd e =? t then z (fst e) (snd e) k else 0%R)) by (intros [d' t'] _; reflexivity).
    unfold tk. rewrite tokens_sum. reflexivity.
Qed.

(** ** One pass of batch training *)
Section Train.
  Context (psi : R -> R) (bnd : mat -> mat -> R) (K T : nat) (docs : list words) (docLens prior : vec) (vp : R).
  Context (HK : 0 < K) (HD : 0 < length docs).
  Context (HC : corpus T docs docLens).
  Notation D := (length docs).
  Notation docn := (fun d => nth d docs []).

  Lemma corpus_doc d : d < D -> NoDup (map fst (docn d)) /\ (forall e, In e (docn d) -> fst e < T /\ (0 <= snd e)%R) /\
    docLens d = tokens (docn d) /\ (1 <= docLens d)%R.
  Proof.
    intros Hd. destruct HC as [F L]. rewrite Forall_forall in F. destruct (F _ (nth_In docs [] Hd)) as [N P].
    rewrite Forall_forall in P. destruct (L d Hd) as [L1 L2]. repeat split; auto; apply P; assumption.
  Qed.

  (** The distributions of a pass. *)
  Definition zpass (word means : mat) (d t : nat) : vec := zs psi K T (means_to_params docLens means prior) word d t.
  Lemma pass_z word means d t k : k < K ->
    nth k (softmax_of (scores psi K (docLens d) (means d) prior (fun k t => psi (word k t)) (fun k => psi (vsum T (word k))) t)) 0%R = zpass word means d t k.
  Proof.
    intros Hk. unfold scores. rewrite softmax_of_nth by exact Hk. unfold zpass, zs. apply (soft_shift K _ _ 0%R); [|exact Hk].
    intros j _. unfold means_to_params. rewrite (Rplus_comm (prior j)), (Rmult_comm (docLens d)). ring.
  Qed.

  Lemma stored_spec t : forall (doc : words) (zf : nat -> list R) acc, NoDup (map fst doc) ->
    fold_left (fun acc '((u, x), zc) => if u =? t then Some (x, zc) else acc) (combine doc (map (fun e => zf (fst e)) doc)) acc =
    match find (fun e => fst e =? t) doc with Some e => Some (snd e, zf t) | None => acc end.
  Proof.
    induction doc as [|[u x] doc IH]; intros zf acc N; [reflexivity|]. cbn [map combine fold_left find fst snd]. inversion N; subst.
    rewrite IH by assumption. destruct (Nat.eqb_spec u t) as [->|NE]; [|reflexivity].
    destruct (find (fun e => fst e =? t) doc) as [e|] eqn:F; [|reflexivity]. exfalso. apply find_some in F as [F1 F2]. apply Nat.eqb_eq in F2.
    apply H1. rewrite <- F2. apply in_map, F1.
  Qed.
  Lemma add_words_is (doc : words) (zf : nat -> list R) grad k t : NoDup (map fst doc) ->
    add_words doc (map (fun e => zf (fst e)) doc) grad k t =
    (grad k t + rsum (map (fun e => snd e * (if fst e =? t then nth k (zf (fst e)) 0 else 0)) doc))%R.
  Proof.
    intros N. unfold add_words, stored. rewrite stored_spec by exact N.
    destruct (find (fun e => fst e =? t) doc) as [e|] eqn:F.
    - apply find_some in F as [F1 F2]. apply Nat.eqb_eq in F2. f_equal. subst t.
      induction doc as [|e' doc IH]; [destruct F1|]. cbn [map] in N. inversion N; subst. cbn [map rsum]. destruct F1 as [->|F1].
      + rewrite Nat.eqb_refl. transitivity (snd e * nth k (zf (fst e)) 0 + 0)%R; [ring|]. f_equal. symmetry.
        assert (Z : forall l : words, ~ In (fst e) (map fst l) -> rsum (map (fun e0 => snd e0 * (if fst e0 =? fst e then nth k (zf (fst e0)) 0 else 0))%R l) = 0%R).
        { induction l as [|x l IHl]; intros NI; [reflexivity|]. cbn [map In] in NI. cbn [map rsum]. rewrite (proj2 (Nat.eqb_neq (fst x) (fst e))) by tauto. rewrite IHl by tauto. ring. }
        apply Z. assumption.
      + rewrite (proj2 (Nat.eqb_neq (fst e') (fst e))) by (intros E; apply H1; rewrite E; apply in_map, F1). rewrite <- IH by assumption. ring.
    - assert (Z : rsum (map (fun e => snd e * (if fst e =? t then nth k (zf (fst e)) 0 else 0))%R doc) = 0%R); [|rewrite Z; ring].
      clear N. induction doc as [|e l IH]; [reflexivity|]. cbn [find] in F. cbn [map rsum]. destruct (fst e =? t); [discriminate|].
      rewrite IH by exact F. ring.
  Qed.

  Lemma visits_exact word means0 m : forall j means grad log, j + m <= D ->
    (forall i k, j <= i -> k < K -> means i k = means0 i k) ->
    exists d' means' grad' log',
      visits psi K T docs docLens prior m word ((Z.of_nat j - 1)%Z, means, grad, log) = Ok (d', means', grad', log') /\
      d' = (Z.of_nat (j + m) - 1)%Z /\
      (forall i k, k < K -> j <= i < j + m -> means' i k = (Nz docs (zpass word means0) i k / docLens i)%R) /\
      (forall i k, k < K -> i < j \/ j + m <= i -> means' i k = means i k) /\
      (forall k t, k < K -> grad' k t = (grad k t +
          rsum (map (fun i => rsum (map (fun e => snd e * (if fst e =? t then zpass word means0 i (fst e) k else 0))%R (docn i))) (seq j m)))%R).
  Proof.
    induction m as [|m IH]; intros j means grad log Hj HM.
    - do 4 eexists. split; [reflexivity|]. rewrite Nat.add_0_r. split; [reflexivity|]. split; [intros; lia|]. split; [reflexivity|].
      intros. cbn [seq map rsum]. ring.
    - cbn [visits]. unfold visit.
      replace (if (Z.of_nat j - 1 + 1 <? Z.of_nat D)%Z then (Z.of_nat j - 1 + 1)%Z else 0%Z) with (Z.of_nat j)
        by (destruct (Z.ltb_spec (Z.of_nat j - 1 + 1) (Z.of_nat D)); lia).
      rewrite Nat2Z.id. destruct (corpus_doc j ltac:(lia)) as (ND & P & L1 & L2).
      rewrite (get_nth docs j [] ltac:(lia)). cbn [bind]. rewrite (infer_is psi (fun x => x) K prior _ _ _ _ _ HK). cbn [bind].
      set (zf := fun t => softmax_of (scores psi K (docLens j) (means j) prior (fun k t => psi (word k t)) (fun k => psi (vsum T (word k))) t)).
      assert (ZF : forall k t, k < K -> nth k (zf t) 0%R = zpass word means0 j t k).
      { intros k t Hk. unfold zf. rewrite pass_z by exact Hk. unfold zpass, zs. apply (soft_shift K _ _ 0%R); [|exact Hk].
        intros i Hi. unfold means_to_params. rewrite (HM j i (le_n j) Hi). ring. }
      destruct (IH (S j) (set_row means j (new_mean (docn j) (map (fun e => zf (fst e)) (docn j)) (docLens j)))
                  (add_words (docn j) (map (fun e => zf (fst e)) (docn j)) grad) (j :: log)) as (d' & means' & grad' & log' & EV & Ed & M1 & M2 & G).
      { lia. }
      { intros i k Hi Hk. unfold set_row. rewrite (proj2 (Nat.eqb_neq i j)) by lia. apply HM; [lia|exact Hk]. }
      exists d', means', grad', log'. split; [rewrite <- EV; do 4 f_equal; lia|]. split; [rewrite Ed; replace (S j + m) with (j + S m) by lia; reflexivity|].
      split; [|split].
      + intros i k Hk Hi. destruct (Nat.eq_dec i j) as [->|NE]; [|apply M1; [exact Hk|lia]].
        rewrite M2 by (try exact Hk; lia). unfold set_row. rewrite Nat.eqb_refl. unfold new_mean. f_equal. rewrite combine_map_r, map_map.
        apply rsum_ext. intros [t x] _. cbn [fst snd]. rewrite ZF by exact Hk. ring.
      + intros i k Hk Hi. rewrite M2 by (try exact Hk; lia). unfold set_row. rewrite (proj2 (Nat.eqb_neq i j)) by lia. reflexivity.
      + intros k t Hk. rewrite (G k t Hk). rewrite add_words_is by exact ND. cbn [seq map rsum]. rewrite Rplus_assoc. f_equal. f_equal.
        apply rsum_ext. intros e _. rewrite ZF by exact Hk. reflexivity.
  Qed.

  (** ** The bound after a pass. *)
  Context (g : R -> R) (CV : dirichlet_convex g psi).
  Context (PA : forall k, k < K -> (0 < prior k)%R) (PE : (0 < vp)%R).
  Notation eta := (fun _ : nat => vp).
  Notation FL L gam lam := (form psi g K T docs prior eta L gam lam (zs psi K T gam lam)).

  Lemma HT' : forall d e, d < D -> In e (docn d) -> fst e < T.
  Proof. intros d e Hd He. apply (corpus_doc d Hd). exact He. Qed.
  Lemma HX' : forall d e, d < D -> In e (docn d) -> (0 <= snd e)%R.
  Proof. intros d e Hd He. apply (corpus_doc d Hd). exact He. Qed.

  Lemma full_ext L gam gam' lam lam' : (forall d k, d < D -> k < K -> gam d k = gam' d k) ->
    (forall k t, k < K -> t < T -> lam k t = lam' k t) -> FL L gam lam = FL L gam' lam'.
  Proof.
    intros HG HL.
    assert (SG : forall d, d < D -> vsum K (gam d) = vsum K (gam' d)) by (intros d Hd; apply vsum_ext; intros; apply HG; assumption).
    assert (SL : forall k, k < K -> vsum T (lam k) = vsum T (lam' k)) by (intros k Hk; apply vsum_ext; intros; apply HL; assumption).
    assert (TE : forall n (v v' w : vec), (forall i, i < n -> v i = v' i) -> tangent g psi n v w = tangent g psi n v' w).
    { intros n v v' w H. unfold tangent, lnB. rewrite (vsum_ext n v v' H). f_equal; [f_equal; apply vsum_ext; intros i Hi; rewrite (H i Hi); reflexivity|].
      apply vsum_ext. intros i Hi. rewrite (H i Hi). reflexivity. }
    unfold form. f_equal.
    - unfold konst, elbo. f_equal; apply vsum_ext; intros i Hi; f_equal; apply TE; intros; [apply HG|apply HL]; assumption.
    - apply wsum_ext. intros d e Hd He. pose proof (HT' d e Hd He) as Ht. apply vsum_ext. intros k Hk.
      assert (Z : zs psi K T gam lam d (fst e) k = zs psi K T gam' lam' d (fst e) k).
      { unfold zs. apply (soft_shift K _ _ 0%R); [|exact Hk]. intros j Hj. rewrite (HG d j Hd Hj), (HL j _ Hj Ht), (SL j Hj). ring. }
      rewrite Z. unfold ec, ew. rewrite (HG d k Hd Hk), (HL k _ Hk Ht), (SL k Hk), (SG d Hd). reflexivity.
  Qed.

  Lemma pass_improves gam lam : (forall d k, d < D -> k < K -> (0 < gam d k)%R) -> (forall k t, k < K -> t < T -> (0 < lam k t)%R) ->
    let z := zs psi K T gam lam in
    (FL ln gam lam <= FL ln (fun d k => prior k + Nz docs z d k) (fun k t => vp + Mz docs z k t))%R.
  Proof.
    intros PG PL z. rewrite (form_elbo psi g K T docs prior eta gam lam (zs psi K T gam lam) HT'). fold z.
    assert (PZ : forall d t k, k < K -> (0 <= z d t k)%R) by (intros; left; apply soft_pos, HK).
    assert (NN : forall d k, d < D -> k < K -> (0 <= Nz docs z d k)%R).
    { intros d k Hd Hk. apply rsum_nonneg. apply Forall_forall. intros x Hx. apply in_map_iff in Hx as (e & <- & He).
      apply Rmult_le_pos; [apply (HX' d); assumption|apply PZ, Hk]. }
    assert (NM : forall k t, k < K -> t < T -> (0 <= Mz docs z k t)%R).
    { intros k t Hk _. apply vsum_nonneg. intros d Hd. apply rsum_nonneg. apply Forall_forall. intros x Hx. apply in_map_iff in Hx as (e & <- & He).
      apply Rmult_le_pos; [apply (HX' d); assumption|]. destruct (_ =? _); [apply PZ, Hk|lra]. }
    eapply Rle_trans; [|apply (form_best psi g K T docs prior eta _ _ z HK HX'); intros; apply soft_proper, HK].
    rewrite (form_elbo psi g K T docs prior eta _ _ z HT'). apply Rplus_le_compat_r.
    apply (elbo_best g psi CV D K T prior eta PA ltac:(intros; exact PE)); assumption.
  Qed.

  Definition good (s : vstate) : Prop :=
    (v_d s = (-1)%Z \/ v_d s = (Z.of_nat D - 1)%Z) /\
    (forall d k, d < D -> k < K -> (0 < means_to_params docLens (v_means s) prior d k)%R) /\
    (forall k t, k < K -> t < T -> (0 < v_word s k t)%R).
  Definition Fs (s : vstate) : R := FL ln (means_to_params docLens (v_means s) prior) (v_word s).

  Lemma visits_start word n means grad log : 0 < n ->
    visits psi K T docs docLens prior n word ((Z.of_nat D - 1)%Z, means, grad, log) = visits psi K T docs docLens prior n word ((-1)%Z, means, grad, log).
  Proof.
    clear PA. intros Hn. destruct n as [|m]; [lia|]. clear Hn.
    cbn [visits]. unfold visit. replace (if (Z.of_nat D - 1 + 1 <? Z.of_nat D)%Z then (Z.of_nat D - 1 + 1)%Z else 0%Z) with 0%Z
      by (destruct (Z.ltb_spec (Z.of_nat D - 1 + 1) (Z.of_nat D)); lia).
    replace (if (-1 + 1 <? Z.of_nat D)%Z then (-1 + 1)%Z else 0%Z) with 0%Z by (destruct (Z.ltb_spec (-1 + 1) (Z.of_nat D)); lia). reflexivity.
  Qed.

  Lemma batch_improves p b s : p_rate p = RBatch -> good s ->
    exists s', one_batch psi bnd K T docs docLens prior vp p D b s = Ok s' /\ good s' /\ (Fs s <= Fs s')%R.
  Proof.
    intros HP (Gd & Gg & Gl). unfold one_batch.
    assert (E : visits psi K T docs docLens prior D (v_word s) (v_d s, v_means s, ((fun _ _ => vp) : mat), v_log s) =
                visits psi K T docs docLens prior D (v_word s) ((-1)%Z, v_means s, ((fun _ _ => vp) : mat), v_log s)).
    { destruct Gd as [->| ->]; [reflexivity|]. apply visits_start, HD. }
    cbv zeta.
    destruct (visits_exact (v_word s) (v_means s) D 0 (v_means s) (fun _ _ => vp) (v_log s) ltac:(lia) ltac:(reflexivity))
      as (d' & means' & grad' & log' & EV & Ed & M1 & _ & G). change (Z.of_nat 0 - 1)%Z with (-1)%Z in EV. rewrite (eq_trans E EV). cbn [bind].
    unfold adjust. rewrite HP. eexists. split; [reflexivity|].
    set (z := zpass (v_word s) (v_means s)) in *.
    assert (PM : forall d k, d < D -> k < K -> means_to_params docLens means' prior d k = (prior k + Nz docs z d k)%R).
    { intros d k Hd Hk. unfold means_to_params. rewrite (M1 d k Hk ltac:(lia)). destruct (corpus_doc d Hd) as (_ & _ & _ & L). field. lra. }
    assert (PW : forall k t, k < K -> grad' k t = (vp + Mz docs z k t)%R) by (intros k t Hk; rewrite (G k t Hk); reflexivity).
    assert (PZ : forall d t k, k < K -> (0 <= z d t k)%R) by (intros; left; apply soft_pos, HK).
    split; [split; [|split]|].
    - right. exact Ed.
    - cbn [v_means]. intros d k Hd Hk. rewrite (PM d k Hd Hk). specialize (PA k Hk).
      assert (0 <= Nz docs z d k)%R; [|lra]. apply rsum_nonneg. apply Forall_forall. intros x Hx. apply in_map_iff in Hx as (e & <- & He).
      apply Rmult_le_pos; [apply (HX' d); assumption|apply PZ, Hk].
    - cbn [v_word]. intros k t Hk Ht. rewrite (PW k t Hk). assert (0 <= Mz docs z k t)%R; [|lra].
      apply vsum_nonneg. intros d Hd. apply rsum_nonneg. apply Forall_forall. intros x Hx. apply in_map_iff in Hx as (e & <- & He).
      apply Rmult_le_pos; [apply (HX' d); assumption|]. destruct (_ =? _); [apply PZ, Hk|lra].
    - unfold Fs. cbn [v_means v_word]. eapply Rle_trans; [apply (pass_improves _ _ Gg Gl)|]. right. apply full_ext.
      + intros d k Hd Hk. rewrite (PM d k Hd Hk). reflexivity.
      + intros k t Hk _. rewrite (PW k t Hk). reflexivity.
  Qed.

  Lemma batches_improve p n : p_rate p = RBatch -> forall b s s', good s ->
    batches psi bnd K T docs docLens prior vp p D n b s = Ok s' -> good s' /\ (Fs s <= Fs s')%R.
  Proof.
    intros HP. induction n as [|n IH]; intros b s s' Gs E; cbn [batches] in E.
    - injection E as <-. split; [exact Gs|lra].
    - destruct (batch_improves p b s HP Gs) as (s1 & E1 & G1 & L1). rewrite E1 in E. cbn [bind] in E.
      destruct (IH _ _ _ G1 E) as [G2 L2]. split; [exact G2|lra].
  Qed.

  Lemma train_improves p word topics upd word' topics' log : p_rate p = RBatch ->
    (forall d k, d < D -> k < K -> (0 < topics d k)%R) -> (forall k t, k < K -> t < T -> (0 < word k t)%R) ->
    train psi bnd K T docs docLens prior vp p word topics upd = Ok (word', topics', log) ->
    (FL ln topics word <= FL ln topics' word')%R /\
    (forall d k, d < D -> k < K -> (0 < topics' d k)%R) /\ (forall k t, k < K -> t < T -> (0 < word' k t)%R).
  Proof.
    intros HP PT PW E. unfold train in E. destruct (train_state psi bnd K T docs docLens prior vp p word topics) as [s|] eqn:S; [|discriminate].
    cbn [bind] in E. injection E as <- <- <-. unfold train_state in S. destruct (existsb _ _); [discriminate|].
    unfold batch_sizes in S. rewrite HP in S. cbn [bind] in S. destruct (Z.of_nat D =? 0)%Z eqn:Z0; [discriminate|]. rewrite Nat2Z.id in S.
    set (s0 := mkV (-1) (params_to_means docLens topics prior) word (fun _ => 1%R) (fun _ => (1 / IZR (Z.of_nat D))%R) (fun _ _ => 0%R) (fun _ => 0%R) []) in S.
    assert (PP : forall d k, d < D -> means_to_params docLens (v_means s0) prior d k = topics d k).
    { intros d k Hd. unfold means_to_params, s0, params_to_means. cbn [v_means]. destruct (corpus_doc d Hd) as (_ & _ & _ & L). field. lra. }
    assert (G0 : good s0).
    { split; [left; reflexivity|]. split; [intros d k Hd Hk; rewrite (PP d k Hd); apply PT; assumption|exact PW]. }
    destruct (batches_improve p _ HP _ _ _ G0 S) as [(_ & G2 & G3) L]. split; [|split; [exact G2|exact G3]].
    eapply Rle_trans; [|exact L]. right. unfold Fs. apply full_ext; [|reflexivity]. intros d k Hd _. symmetry. apply PP, Hd.
  Qed.
End Train.
