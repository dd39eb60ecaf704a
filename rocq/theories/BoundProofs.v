(** * Lemmas about the evidence and its lower bounds. *)
From Coq Require Import List Reals Arith Bool Lra Lia.
From Verif Require Import Base RealModel RealProofs MixModel MixProofs VbModel VbProofs BoundSpec.
Import ListNotations.
Open Scope nat_scope.

(** ** Gibbs' inequality *)
Lemma gibbs_lse K (q s : vec) : proper K q ->
  (vsum K (fun k => q k * (s k - ln (q k))) <= ln (vsum K (fun k => exp (s k))))%R.
Proof.
  intros [Q1 Q2]. assert (HK : 0 < K) by (destruct K; [cbv in Q2; lra|lia]).
  set (Z := vsum K (fun k => exp (s k))).
  assert (HZ : (0 < Z)%R) by (apply vsum_pos; [exact HK|intros; apply exp_pos]).
  assert (H : (vsum K (fun k => q k * (s k - ln (q k))) <= vsum K (fun k => exp (s k) * / Z + (q k * (ln Z) - q k)))%R).
  { apply vsum_le. intros k Hk. destruct (Q1 k Hk) as [P|<-].
    - assert (E : (s k - ln (q k) = ln (exp (s k) / Z / q k) + ln Z)%R).
      { unfold Rdiv. assert (0 < / Z)%R by (apply Rinv_0_lt_compat; lra). assert (0 < / q k)%R by (apply Rinv_0_lt_compat; lra).
        pose proof (exp_pos (s k)). rewrite ln_mult, ln_mult, ln_exp, !ln_Rinv; try lra. apply Rmult_lt_0_compat; lra. }
      rewrite E. assert (B : (ln (exp (s k) / Z / q k) <= exp (s k) / Z / q k - 1)%R).
      { apply ln_le_sub1. repeat apply Rdiv_lt_0_compat; try lra. apply exp_pos. }
      assert (q k * ln (exp (s k) / Z / q k) <= q k * (exp (s k) / Z / q k - 1))%R by (apply Rmult_le_compat_l; lra).
      replace (q k * (exp (s k) / Z / q k - 1))%R with (exp (s k) * / Z - q k)%R in H by (field; lra). lra.
    - assert (0 < exp (s k) * / Z)%R by (apply Rmult_lt_0_compat; [apply exp_pos|apply Rinv_0_lt_compat; lra]). lra. }
  eapply Rle_trans; [exact H|].
  rewrite (vsum_plus K (fun k => exp (s k) * / Z)%R), (vsum_scale_r K (/ Z)). fold Z.
  replace (vsum K (fun k => (q k * ln Z - q k)%R)) with (ln Z - 1)%R; [rewrite Rinv_r; lra|].
  transitivity (vsum K (fun k => q k * (ln Z - 1))%R); [rewrite vsum_scale_r, Q2; ring|apply vsum_ext; intros; ring].
Qed.

(** The softmax attains it. *)
Definition soft (K : nat) (s : vec) : vec := fun k => (exp (s k) / vsum K (fun k => exp (s k)))%R.
Lemma soft_pos K s k : 0 < K -> (0 < soft K s k)%R.
Proof. intros HK. apply Rdiv_lt_0_compat; [apply exp_pos|apply vsum_pos; [exact HK|intros; apply exp_pos]]. Qed.
Lemma soft_proper K s : 0 < K -> proper K (soft K s).
Proof.
  intros HK. split; [intros; left; apply soft_pos, HK|]. unfold soft, Rdiv. rewrite vsum_scale_r. apply Rinv_r.
  apply Rgt_not_eq, vsum_pos; [exact HK|intros; apply exp_pos].
Qed.
Lemma gibbs_soft K s : 0 < K ->
  vsum K (fun k => soft K s k * (s k - ln (soft K s k)))%R = ln (vsum K (fun k => exp (s k))).
Proof.
  intros HK. assert (HZ : (0 < vsum K (fun k => exp (s k)))%R) by (apply vsum_pos; [exact HK|intros; apply exp_pos]).
  transitivity (vsum K (fun k => soft K s k * ln (vsum K (fun k => exp (s k))))%R).
  - apply vsum_ext. intros k _. f_equal. unfold soft at 1. unfold Rdiv.
    rewrite ln_mult, ln_exp, ln_Rinv; try lra; [apply exp_pos|apply Rinv_0_lt_compat, HZ].
  - rewrite vsum_scale_r, (proj2 (soft_proper K s HK)). ring.
Qed.
Lemma soft_best K s q : 0 < K -> proper K q ->
  (vsum K (fun k => q k * (s k - ln (q k))) <= vsum K (fun k => soft K s k * (s k - ln (soft K s k))))%R.
Proof. intros HK Q. rewrite gibbs_soft by exact HK. apply gibbs_lse, Q. Qed.

(** ** Sums over assignments and expectations *)
Definition total (K n : nat) (f : list nat -> R) : R := rsum (map f (assignments K n)).
Lemma total_0 K f : total K 0 f = f [].
Proof. unfold total. cbn. ring. Qed.
Lemma rsum_flat_map {A} (f : A -> R) (g : nat -> list A) l : rsum (map f (flat_map g l)) = rsum (map (fun k => rsum (map f (g k))) l).
Proof. induction l as [|k l IH]; [reflexivity|]. cbn [flat_map map rsum]. rewrite map_app, rsum_app, IH. reflexivity. Qed.
Lemma total_S K n f : total K (S n) f = vsum K (fun k => total K n (fun a => f (k :: a))).
Proof. unfold total. cbn [assignments]. rewrite rsum_flat_map. apply rsum_ext. intros k _. rewrite map_map. reflexivity. Qed.
Lemma total_pos K n f : 0 < K -> (forall a, (0 < f a)%R) -> (0 < total K n f)%R.
Proof.
  intros HK. revert f. induction n as [|n IH]; intros f H; [rewrite total_0; apply H|].
  rewrite total_S. apply vsum_pos; [exact HK|]. intros k _. apply IH. intros a. apply H.
Qed.


Lemma Ex_elbo K qs : Forall (proper K) qs -> forall f,
  (Ex K qs f + ents K qs <= ln (total K (length qs) (fun a => exp (f a))))%R.
Proof.
  induction 1 as [|q qs Q F IH]; intros f.
  - cbn [Ex ents map rsum length]. rewrite total_0, ln_exp. unfold ents. cbn [map rsum]. lra.
  - assert (HK : 0 < K) by (destruct Q as [_ Q2]; destruct K; [cbv in Q2; lra|lia]).
    cbn [Ex length]. rewrite total_S. unfold ents. cbn [map rsum]. fold (ents K qs).
    set (S := fun k => total K (length qs) (fun a => exp (f (k :: a)))).
    assert (PS : forall k, (0 < S k)%R) by (intros k; apply total_pos; [exact HK|intros; apply exp_pos]).
    pose proof (gibbs_lse K q (fun k => ln (S k)) Q) as G. cbv beta in G.
    rewrite (vsum_ext K (fun k => exp (ln (S k))) S) in G by (intros; apply exp_ln, PS).
    eapply Rle_trans; [|exact G]. unfold entropy.
    replace (vsum K (fun k => q k * (ln (S k) - ln (q k))))%R
      with (vsum K (fun k => q k * ln (S k)) - vsum K (fun k => q k * ln (q k)))%R.
    2:{ transitivity (vsum K (fun k => q k * ln (S k) + -1 * (q k * ln (q k)))%R); [|apply vsum_ext; intros; ring].
        rewrite (vsum_plus K (fun k => q k * ln (S k))%R), vsum_scale. ring. }
    assert (vsum K (fun k => q k * Ex K qs (fun a => f (k :: a))) + ents K qs <= vsum K (fun k => q k * ln (S k)))%R; [|lra].
    replace (ents K qs) with (vsum K (fun k => q k * ents K qs))%R by (rewrite vsum_scale_r, (proj2 Q); ring).
    rewrite <- vsum_plus. apply vsum_le. intros k Hk. rewrite <- Rmult_plus_distr_l.
    apply Rmult_le_compat_l; [apply Q, Hk|]. apply IH.
Qed.

Lemma Ex_mono K qs f g : Forall (proper K) qs -> (forall a, (f a <= g a)%R) -> (Ex K qs f <= Ex K qs g)%R.
Proof.
  intros F. revert f g. induction F as [|q qs Q F IH]; intros f g H; [apply H|]. cbn [Ex]. apply vsum_le.
  intros k Hk. apply Rmult_le_compat_l; [apply Q, Hk|]. apply IH. intros; apply H.
Qed.
Lemma Ex_ext K qs f g : (forall a, f a = g a) -> Ex K qs f = Ex K qs g.
Proof. revert f g. induction qs as [|q qs IH]; intros f g H; [apply H|]. cbn [Ex]. apply vsum_ext. intros. f_equal. apply IH. intros; apply H. Qed.
Lemma Ex_plus K qs f g : Ex K qs (fun a => f a + g a)%R = (Ex K qs f + Ex K qs g)%R.
Proof.
  revert f g. induction qs as [|q qs IH]; intros f g; [reflexivity|]. cbn [Ex]. rewrite <- vsum_plus. apply vsum_ext. intros.
  rewrite IH. ring.
Qed.
Lemma Ex_scale K qs c f : Ex K qs (fun a => c * f a)%R = (c * Ex K qs f)%R.
Proof.
  revert f. induction qs as [|q qs IH]; intros f; [reflexivity|]. cbn [Ex]. rewrite <- vsum_scale. apply vsum_ext. intros.
  rewrite IH. ring.
Qed.
Lemma Ex_const K qs c : Forall (proper K) qs -> Ex K qs (fun _ => c) = c.
Proof.
  induction 1 as [|q qs Q F IH]; [reflexivity|]. cbn [Ex]. rewrite (vsum_ext K _ (fun k => q k * c)%R) by (intros; rewrite IH; reflexivity).
  rewrite vsum_scale_r, (proj2 Q). ring.
Qed.
Lemma vsum_0 n v : (forall i, i < n -> v i = 0%R) -> vsum n v = 0%R.
Proof. intros H. rewrite (vsum_ext n v (fun _ => 0%R) H), vsum_const. ring. Qed.
Lemma Ex_0 K qs : Ex K qs (fun _ => 0%R) = 0%R.
Proof. induction qs as [|q qs IH]; [reflexivity|]. cbn [Ex]. apply vsum_0. intros. rewrite IH. ring. Qed.
Lemma vsum_S n v : vsum (S n) v = (vsum n v + v n)%R.
Proof. unfold vsum. rewrite seq_S, map_app, rsum_app. cbn. ring. Qed.
Lemma Ex_vsum K qs n (f : nat -> list nat -> R) : Ex K qs (fun a => vsum n (fun i => f i a)) = vsum n (fun i => Ex K qs (f i)).
Proof.
  induction n as [|n IH]; [apply Ex_0|]. rewrite vsum_S, <- IH, <- Ex_plus. apply Ex_ext. intros a. apply vsum_S.
Qed.

(** Expected counts. *)
Definition e_doc (tk : list token) (qs : list vec) (d k : nat) : R :=
  rsum (map (fun '((d', _), q) => if d' =? d then q k else 0%R) (combine tk qs)).
Definition e_word (tk : list token) (qs : list vec) (k t : nat) : R :=
  rsum (map (fun '((_, t'), q) => if t' =? t then q k else 0%R) (combine tk qs)).

Lemma vsum_pick K (q : vec) k c : k < K -> vsum K (fun j => q j * (if j =? k then c else 0))%R = (q k * c)%R.
Proof.
  intros Hk. induction K as [|K IH]; [lia|]. rewrite vsum_S. destruct (Nat.eqb_spec K k) as [->|N].
  - rewrite vsum_0; [ring|]. intros j Hj. rewrite (proj2 (Nat.eqb_neq j k)) by lia. ring.
  - rewrite IH by lia. ring.
Qed.

Lemma Ex_n_doc K qs d k : k < K -> Forall (proper K) qs -> forall tk, length tk = length qs ->
  Ex K qs (fun a => n_doc tk a d k) = e_doc tk qs d k.
Proof.
  intros Hk F. induction F as [|q qs Q F IH]; intros [|[d' t'] tk] L; try discriminate L; [reflexivity|].
  injection L as L. cbn [Ex]. unfold e_doc. cbn [combine map rsum]. fold (e_doc tk qs d k). rewrite <- (IH tk L).
  transitivity (vsum K (fun j => q j * (if j =? k then (if d' =? d then 1 else 0) else 0) + q j * Ex K qs (fun a => n_doc tk a d k))%R).
  - apply vsum_ext. intros j _. rewrite <- Rmult_plus_distr_l. f_equal.
    rewrite <- (Ex_const K qs (if j =? k then if d' =? d then 1 else 0 else 0)%R F), <- Ex_plus. apply Ex_ext. intros a.
    unfold n_doc. cbn [combine map rsum]. destruct (d' =? d), (j =? k); reflexivity.
  - rewrite vsum_plus, vsum_pick by exact Hk. rewrite vsum_scale_r, (proj2 Q). destruct (d' =? d); ring.
Qed.
Lemma Ex_n_word K qs t k : k < K -> Forall (proper K) qs -> forall tk, length tk = length qs ->
  Ex K qs (fun a => n_word tk a k t) = e_word tk qs k t.
Proof.
  intros Hk F. induction F as [|q qs Q F IH]; intros [|[d' t'] tk] L; try discriminate L; [reflexivity|].
  injection L as L. cbn [Ex]. unfold e_word. cbn [combine map rsum]. fold (e_word tk qs k t). rewrite <- (IH tk L).
  transitivity (vsum K (fun j => q j * (if j =? k then (if t' =? t then 1 else 0) else 0) + q j * Ex K qs (fun a => n_word tk a k t))%R).
  - apply vsum_ext. intros j _. rewrite <- Rmult_plus_distr_l. f_equal.
    rewrite <- (Ex_const K qs (if j =? k then if t' =? t then 1 else 0 else 0)%R F), <- Ex_plus. apply Ex_ext. intros a.
    unfold n_word. cbn [combine map rsum]. destruct (t' =? t), (j =? k); reflexivity.
  - rewrite vsum_plus, vsum_pick by exact Hk. rewrite vsum_scale_r, (proj2 Q). destruct (t' =? t); ring.
Qed.

Lemma n_doc_nonneg tk a d k : (0 <= n_doc tk a d k)%R.
Proof. apply rsum_nonneg. apply Forall_forall. intros x Hx. apply in_map_iff in Hx as ([[d' t'] k'] & <- & _). destruct (_ && _); lra. Qed.
Lemma n_word_nonneg tk a k t : (0 <= n_word tk a k t)%R.
Proof. apply rsum_nonneg. apply Forall_forall. intros x Hx. apply in_map_iff in Hx as ([[d' t'] k'] & <- & _). destruct (_ && _); lra. Qed.

(** Convexity of the normaliser: [psi v_i - psi (sum v)] is its derivative. *)
Definition dirichlet_convex (g psi : R -> R) : Prop :=
  forall n (v w : vec), (forall i, i < n -> (0 < v i)%R) -> (forall i, i < n -> (0 < w i)%R) ->
    (lnB g n v + vsum n (fun i => (psi (v i) - psi (vsum n v)) * (w i - v i)) <= lnB g n w)%R.

(** ** The bound: [rest v w] is the value at [w] of the tangent at [v]. *)
Section Elbo.
  Context (g psi : R -> R) (CV : dirichlet_convex g psi).
  Definition tangent (n : nat) (v w : vec) : R :=
    (lnB g n v + vsum n (fun i => (psi (v i) - psi (vsum n v)) * (w i - v i)))%R.
  Lemma tangent_self n v : tangent n v v = lnB g n v.
  Proof. unfold tangent. rewrite vsum_0; [ring|]. intros. ring. Qed.

  Context (D K T : nat) (alpha eta : vec) (PA : forall k, k < K -> (0 < alpha k)%R) (PE : forall t, t < T -> (0 < eta t)%R).
  Definition elbo (gam lam : mat) (N M : mat) : R :=
    (vsum D (fun d => tangent K (gam d) (fun k => alpha k + N d k) - lnB g K alpha) +
     vsum K (fun k => tangent T (lam k) (fun t => eta t + M k t) - lnB g T eta))%R.

  Lemma Ex_tangent qs n v (c : vec) (f : nat -> list nat -> R) (e : vec) : Forall (proper K) qs ->
    (forall i, i < n -> Ex K qs (f i) = e i) ->
    Ex K qs (fun a => tangent n v (fun i => c i + f i a)%R) = tangent n v (fun i => c i + e i)%R.
  Proof.
    intros F H. unfold tangent. rewrite Ex_plus, Ex_const by exact F. f_equal. rewrite Ex_vsum. apply vsum_ext. intros i Hi.
    rewrite Ex_scale. f_equal. rewrite <- (H i Hi).
    transitivity (Ex K qs (fun a => (c i - v i) + f i a)%R); [apply Ex_ext; intros; ring|].
    rewrite Ex_plus, Ex_const by exact F. ring.
  Qed.

  Lemma elbo_le tk qs gam lam : length tk = length qs -> Forall (proper K) qs ->
    (forall d k, d < D -> k < K -> (0 < gam d k)%R) -> (forall k t, k < K -> t < T -> (0 < lam k t)%R) ->
    (elbo gam lam (e_doc tk qs) (e_word tk qs) + ents K qs <= ln (evidence g D K T alpha eta tk))%R.
  Proof.
    intros L F PG PL. unfold evidence. rewrite L.
    eapply Rle_trans; [|apply (Ex_elbo K qs F (joint g D K T alpha eta tk))]. apply Rplus_le_compat_r.
    assert (E : elbo gam lam (e_doc tk qs) (e_word tk qs) =
                Ex K qs (fun a => elbo gam lam (n_doc tk a) (n_word tk a))).
    { unfold elbo. rewrite Ex_plus. f_equal; rewrite Ex_vsum; apply vsum_ext; intros i Hi; unfold Rminus; rewrite Ex_plus, Ex_const by exact F;
        f_equal; symmetry; apply Ex_tangent; try exact F; intros j Hj.
      - apply Ex_n_doc; assumption.
      - apply Ex_n_word; assumption. }
    rewrite E. apply Ex_mono; [exact F|]. intros a. unfold elbo, joint. apply Rplus_le_compat; apply vsum_le; intros i Hi; apply Rplus_le_compat_r; apply CV; auto; intros j Hj.
    - specialize (PA j Hj). pose proof (n_doc_nonneg tk a i j). lra.
    - specialize (PE j Hj). pose proof (n_word_nonneg tk a i j). lra.
  Qed.

  (** Moving the distributions to the expected counts only helps. *)
  Lemma elbo_best gam lam N M :
    (forall d k, d < D -> k < K -> (0 < gam d k)%R) -> (forall k t, k < K -> t < T -> (0 < lam k t)%R) ->
    (forall d k, d < D -> k < K -> (0 <= N d k)%R) -> (forall k t, k < K -> t < T -> (0 <= M k t)%R) ->
    (elbo gam lam N M <= elbo (fun d k => alpha k + N d k) (fun k t => eta t + M k t) N M)%R.
  Proof.
    intros PG PL PN PM. unfold elbo. apply Rplus_le_compat; apply vsum_le; intros i Hi; apply Rplus_le_compat_r; rewrite tangent_self;
      apply CV; auto; intros j Hj.
    - specialize (PA j Hj). specialize (PN i j Hi Hj). lra.
    - specialize (PE j Hj). specialize (PM i j Hi Hj). lra.
  Qed.
End Elbo.

(** ** The evidence is a distribution over the words *)
Lemma evidence_nil g D K T alpha eta : evidence g D K T alpha eta [] = 1%R.
Proof.
  unfold evidence. cbn [length]. change (total K 0 (fun a => exp (joint g D K T alpha eta [] a)) = 1%R). rewrite total_0.
  transitivity (exp 0); [f_equal|apply exp_0]. unfold joint. rewrite !vsum_0; [ring| |]; intros i _.
  - unfold lnB. rewrite (vsum_ext T (fun t => eta t + n_word [] [] i t)%R eta) by (intros; unfold n_word; cbn; ring).
    rewrite (vsum_ext T (fun t => g (eta t + n_word [] [] i t)%R) (fun t => g (eta t))) by (intros; f_equal; unfold n_word; cbn; ring). ring.
  - unfold lnB. rewrite (vsum_ext K (fun t => alpha t + n_doc [] [] i t)%R alpha) by (intros; unfold n_doc; cbn; ring).
    rewrite (vsum_ext K (fun t => g (alpha t + n_doc [] [] i t)%R) (fun t => g (alpha t))) by (intros; f_equal; unfold n_doc; cbn; ring). ring.
Qed.

Section Unit.
  Context (g : R -> R) (G : gamma_like g).
  (** One more at [j]. *)
  Lemma vsum_bump n (f f' : vec) j c : j < n -> f' j = (f j + c)%R -> (forall i, i < n -> i <> j -> f' i = f i) ->
    vsum n f' = (vsum n f + c)%R.
  Proof.
    intros Hj E H. induction n as [|n IH]; [lia|]. rewrite !vsum_S. destruct (Nat.eq_dec n j) as [->|N].
    - rewrite E. rewrite (vsum_ext j f' f); [ring|]. intros i Hi. apply H; lia.
    - rewrite IH; [rewrite (H n); [ring|lia|exact N]|lia|intros; apply H; lia].
  Qed.
  Lemma lnB_bump n (v v' : vec) j : j < n -> (forall i, i < n -> (0 < v i)%R) -> v' j = (v j + 1)%R ->
    (forall i, i < n -> i <> j -> v' i = v i) -> lnB g n v' = (lnB g n v + ln (v j / vsum n v))%R.
  Proof.
    intros Hj P E H. assert (PS : (0 < vsum n v)%R) by (apply vsum_pos; [lia|exact P]). unfold lnB.
    rewrite (vsum_bump n v v' j 1%R Hj E H), (G _ PS).
    rewrite (vsum_bump n (fun i => g (v i)) (fun i => g (v' i)) j (ln (v j)) Hj); [|rewrite E; apply G, P, Hj|intros; f_equal; apply H; assumption].
    unfold Rdiv. rewrite ln_mult, ln_Rinv; [ring|exact PS|apply P, Hj|apply Rinv_0_lt_compat, PS].
  Qed.

  Context (D K T : nat) (alpha eta : vec) (PA : forall k, k < K -> (0 < alpha k)%R) (PE : forall t, t < T -> (0 < eta t)%R).
  Lemma joint_cons d t tk k a : d < D -> t < T -> k < K ->
    joint g D K T alpha eta ((d, t) :: tk) (k :: a) =
    (joint g D K T alpha eta tk a +
     ln ((alpha k + n_doc tk a d k) / vsum K (fun k => alpha k + n_doc tk a d k)) +
     ln ((eta t + n_word tk a k t) / vsum T (fun t => eta t + n_word tk a k t)))%R.
  Proof.
    intros Hd Ht Hk. unfold joint.
    rewrite (vsum_bump D (fun d0 => lnB g K (fun k0 => alpha k0 + n_doc tk a d0 k0) - lnB g K alpha)%R
      (fun d0 => lnB g K (fun k0 => alpha k0 + n_doc ((d, t) :: tk) (k :: a) d0 k0) - lnB g K alpha)%R d
      (ln ((alpha k + n_doc tk a d k) / vsum K (fun k => alpha k + n_doc tk a d k)))%R Hd).
    2:{ rewrite (lnB_bump K (fun k0 => alpha k0 + n_doc tk a d k0)%R _ k Hk).
        - ring.
        - intros i Hi. specialize (PA i Hi). pose proof (n_doc_nonneg tk a d i). lra.
        - unfold n_doc. cbn [combine map rsum]. rewrite !Nat.eqb_refl. cbn [andb]. ring.
        - intros i Hi N. unfold n_doc. cbn [combine map rsum]. rewrite (proj2 (Nat.eqb_neq k i)) by congruence. rewrite andb_false_r. ring. }
    2:{ intros i Hi N. f_equal. unfold lnB. f_equal; [apply vsum_ext; intros j Hj; f_equal|f_equal; apply vsum_ext; intros j Hj];
        unfold n_doc; cbn [combine map rsum]; rewrite (proj2 (Nat.eqb_neq d i)) by congruence; cbn [andb]; ring. }
    rewrite (vsum_bump K (fun k0 => lnB g T (fun t0 => eta t0 + n_word tk a k0 t0) - lnB g T eta)%R
      (fun k0 => lnB g T (fun t0 => eta t0 + n_word ((d, t) :: tk) (k :: a) k0 t0) - lnB g T eta)%R k
      (ln ((eta t + n_word tk a k t) / vsum T (fun t => eta t + n_word tk a k t)))%R Hk).
    2:{ rewrite (lnB_bump T (fun t0 => eta t0 + n_word tk a k t0)%R _ t Ht).
        - ring.
        - intros i Hi. specialize (PE i Hi). pose proof (n_word_nonneg tk a k i). lra.
        - unfold n_word. cbn [combine map rsum]. rewrite !Nat.eqb_refl. cbn [andb]. ring.
        - intros i Hi N. unfold n_word. cbn [combine map rsum]. rewrite (proj2 (Nat.eqb_neq t i)) by congruence. cbn [andb]. ring. }
    2:{ intros i Hi N. f_equal. unfold lnB. f_equal; [apply vsum_ext; intros j Hj; f_equal|f_equal; apply vsum_ext; intros j Hj];
        unfold n_word; cbn [combine map rsum]; rewrite (proj2 (Nat.eqb_neq k i)) by congruence; rewrite andb_false_r; ring. }
    ring.
  Qed.

  Lemma total_vsum n m (f : nat -> list nat -> R) : vsum m (fun t => total K n (f t)) = total K n (fun a => vsum m (fun t => f t a)).
  Proof. unfold total, vsum. apply (rsum_swap (fun t a => f t a)). Qed.
  Lemma total_ext n f f' : (forall a, f a = f' a) -> total K n f = total K n f'.
  Proof. intros H. apply rsum_ext. intros; apply H. Qed.

  Lemma evidence_cons d tk : d < D -> 0 < K -> 0 < T ->
    vsum T (fun t => evidence g D K T alpha eta ((d, t) :: tk)) = evidence g D K T alpha eta tk.
  Proof.
    intros Hd HK HT. unfold evidence. cbn [length].
    change (vsum T (fun t => total K (S (length tk)) (fun a => exp (joint g D K T alpha eta ((d, t) :: tk) a))) =
            total K (length tk) (fun a => exp (joint g D K T alpha eta tk a))).
    rewrite (vsum_ext T _ (fun t => vsum K (fun k => total K (length tk) (fun a => exp (joint g D K T alpha eta ((d, t) :: tk) (k :: a))))))
      by (intros; apply total_S).
    rewrite (vsum_ext T _ (fun t => total K (length tk) (fun a => vsum K (fun k => exp (joint g D K T alpha eta ((d, t) :: tk) (k :: a)))))) by (intros; apply total_vsum).
    rewrite total_vsum. apply total_ext. intros a.
    set (p := fun k => ((alpha k + n_doc tk a d k) / vsum K (fun k => alpha k + n_doc tk a d k))%R).
    set (w := fun k t => ((eta t + n_word tk a k t) / vsum T (fun t => eta t + n_word tk a k t))%R).
    assert (PN : forall k, k < K -> (0 < alpha k + n_doc tk a d k)%R) by (intros k Hk; specialize (PA k Hk); pose proof (n_doc_nonneg tk a d k); lra).
    assert (PM : forall k t, t < T -> (0 < eta t + n_word tk a k t)%R) by (intros k t Ht; specialize (PE t Ht); pose proof (n_word_nonneg tk a k t); lra).
    assert (PSN : (0 < vsum K (fun k => alpha k + n_doc tk a d k))%R) by (apply vsum_pos; [exact HK|exact PN]).
    assert (PSM : forall k, (0 < vsum T (fun t => eta t + n_word tk a k t))%R) by (intros k; apply vsum_pos; [exact HT|apply PM]).
    transitivity (vsum T (fun t => vsum K (fun k => exp (joint g D K T alpha eta tk a) * p k * w k t)%R)).
    - apply vsum_ext. intros t Ht. apply vsum_ext. intros k Hk. rewrite joint_cons by assumption.
      rewrite !exp_plus, !exp_ln; [reflexivity| |]; apply Rdiv_lt_0_compat; auto.
    - rewrite vsum_swap. transitivity (vsum K (fun k => exp (joint g D K T alpha eta tk a) * p k)%R).
      + apply vsum_ext. intros k Hk. rewrite vsum_scale. replace (vsum T (w k)) with 1%R; [ring|].
        unfold w, Rdiv. rewrite vsum_scale_r. symmetry. apply Rinv_r. apply Rgt_not_eq, PSM.
      + rewrite vsum_scale. replace (vsum K p) with 1%R; [ring|]. unfold p, Rdiv. rewrite vsum_scale_r. symmetry. apply Rinv_r. lra.
  Qed.

  Lemma evidence_pos tk : 0 < K -> (0 < evidence g D K T alpha eta tk)%R.
  Proof. intros HK. apply total_pos; [exact HK|]. intros; apply exp_pos. Qed.
  Lemma evidence_le_1 tk : 0 < K -> 0 < T -> Forall (fun e => fst e < D /\ snd e < T) tk -> (evidence g D K T alpha eta tk <= 1)%R.
  Proof.
    intros HK HT. induction 1 as [|[d t] tk [Hd Ht] F IH]; [rewrite evidence_nil; lra|]. cbn [fst snd] in Hd, Ht.
    eapply Rle_trans; [|exact IH]. rewrite <- (evidence_cons d tk Hd HK HT).
    apply (vsum_in_le T (fun t => evidence g D K T alpha eta ((d, t) :: tk)) t); [|exact Ht].
    intros; left; apply evidence_pos, HK.
  Qed.
End Unit.
