(** * Lemmas about the mixture of multinomials and its bound. *)
From Coq Require Import List Reals Arith Bool Lra Lia.
From Verif Require Import Base RealModel RealProofs MixModel MixProofs MixProps VbModel VbProofs BoundSpec BoundProofs GammaProofs BoundModel BoundMore MixBoundSpec.
Import ListNotations.
Open Scope nat_scope.

Lemma of_topic_cons x xs k' z k : of_topic (x :: xs) (k' :: z) k = ((if k' =? k then x else 0) + of_topic xs z k)%R.
Proof. reflexivity. Qed.
Lemma of_topic_nonneg xs z k : Forall (fun x => (0 <= x)%R) xs -> (0 <= of_topic xs z k)%R.
Proof.
  intros F. apply rsum_nonneg. apply Forall_forall. intros y Hy. apply in_map_iff in Hy as ([x k'] & <- & H).
  apply in_combine_l in H. rewrite Forall_forall in F. specialize (F x H). destruct (k' =? k); lra.
Qed.
(** The weights of topic [k] when the topics are drawn from [qs]. *)
Definition e_topic (xs : list R) (qs : list vec) (k : nat) : R := rsum (map (fun '(x, q) => (x * (q : vec) k)%R) (combine xs qs)).
Lemma Ex_of_topic K qs k : k < K -> Forall (proper K) qs -> forall xs, length xs = length qs ->
  Ex K qs (fun z => of_topic xs z k) = e_topic xs qs k.
Proof.
  intros Hk. induction 1 as [|q qs Q F IH]; intros [|x xs] L; try discriminate L; [reflexivity|].
  cbn [Ex]. rewrite (vsum_ext K _ (fun j => q j * (if j =? k then x else 0) + q j * e_topic xs qs k)%R).
  2:{ intros j Hj. rewrite <- Rmult_plus_distr_l. f_equal.
      rewrite (Ex_ext K qs _ (fun z => (if j =? k then x else 0) + of_topic xs z k)%R) by (intros; apply of_topic_cons).
      rewrite Ex_plus, Ex_const by exact F. f_equal. apply IH. injection L; auto. }
  rewrite (vsum_plus K (fun j => q j * (if j =? k then x else 0))%R), vsum_pick by exact Hk.
  rewrite vsum_scale_r, (proj2 Q). unfold e_topic. cbn [combine map rsum]. ring.
Qed.
Lemma e_topic_nonneg K xs qs k : k < K -> Forall (fun x => (0 <= x)%R) xs -> Forall (proper K) qs -> (0 <= e_topic xs qs k)%R.
Proof.
  intros Hk F G. apply rsum_nonneg. apply Forall_forall. intros y Hy. apply in_map_iff in Hy as ([x q] & <- & H).
  rewrite Forall_forall in F, G. apply Rmult_le_pos; [apply F, (in_combine_l _ _ _ _ H)|apply (G q (in_combine_r _ _ _ _ H)), Hk].
Qed.

Section Bound.
  Context (g psi : R -> R) (K T : nat) (alpha eta : vec).
  Hypothesis CV : dirichlet_convex g psi.
  Hypothesis PA : forall k, k < K -> (0 < alpha k)%R.
  Hypothesis PE : forall t, t < T -> (0 < eta t)%R.
  Notation Nq W qs := (fun k => e_topic (map (fun _ : vec => 1%R) W) qs k).
  Notation Mq W qs := (fun k t => e_topic (map (fun doc : vec => doc t) W) qs k).

  Definition melbo (cp : vec) (wp : nat -> vec) (N : vec) (M : nat -> vec) : R :=
    ((tangent g psi K cp (fun k => alpha k + N k) - lnB g K alpha) +
     vsum K (fun k => tangent g psi T (wp k) (fun t => eta t + M k t) - lnB g T eta))%R.
  Lemma gap_tangent n prior par M : (tangent g psi n par (fun i => prior i + M i) - lnB g n prior)%R =
    (dir_gap g psi n prior par + vsum n (fun i => M i * e_ln psi n par i))%R.
  Proof using.
    unfold tangent, dir_gap, e_ln.
    rewrite (vsum_ext n (fun i => (psi (par i) - psi (vsum n par)) * (prior i + M i - par i))%R
      (fun i => (prior i - par i) * (psi (par i) - psi (vsum n par)) + M i * (psi (par i) - psi (vsum n par)))%R) by (intros; ring).
    rewrite (vsum_plus n (fun i => (prior i - par i) * (psi (par i) - psi (vsum n par)))%R). ring.
  Qed.
  Lemma e_topic_sum n (W qs : list vec) (c : vec) k : length W = length qs ->
    vsum n (fun t => e_topic (map (fun doc : vec => doc t) W) qs k * c t)%R =
    rsum (map (fun '(doc, q) => (q k * vsum n (fun t => doc t * c t))%R) (combine W qs)).
  Proof using.
    revert qs. induction W as [|doc W IH]; intros [|q qs] L; try discriminate L.
    - cbn. apply vsum_0. intros. unfold e_topic. cbn. ring.
    - cbn [combine map rsum]. rewrite <- (IH qs) by (injection L; auto). rewrite <- vsum_scale, <- vsum_plus. apply vsum_ext. intros t _.
      unfold e_topic. cbn [map combine rsum]. ring.
  Qed.
  Lemma bound_melbo (W qs : list vec) cp wp : length W = length qs ->
    mix_bound g psi K T alpha eta W qs cp wp = (melbo cp wp (Nq W qs) (Mq W qs) + ents K qs)%R.
  Proof using.
    intros L. unfold melbo. rewrite gap_tangent.
    rewrite (vsum_ext K (fun k => tangent g psi T (wp k) (fun t => eta t + Mq W qs k t) - lnB g T eta)%R
       (fun k => dir_gap g psi T eta (wp k) + vsum T (fun t => Mq W qs k t * e_ln psi T (wp k) t))%R).
    2:{ intros k _. apply gap_tangent. }
    rewrite (vsum_plus K (fun k => dir_gap g psi T eta (wp k))). unfold mix_bound.
    assert (E : rsum (map (fun '(doc, q) => vsum K (fun k => (q : vec) k * (e_ln psi K cp k + vsum T (fun t => (doc : vec) t * e_ln psi T (wp k) t)))%R) (combine W qs)) =
      (vsum K (fun i => Nq W qs i * e_ln psi K cp i) + vsum K (fun k => vsum T (fun t => Mq W qs k t * e_ln psi T (wp k) t)))%R); [|rewrite E; ring].
    rewrite <- vsum_plus.
    rewrite (vsum_ext K _ (fun k => rsum (map (fun '(doc, q) => (q : vec) k * (e_ln psi K cp k + vsum T (fun t => (doc : vec) t * e_ln psi T (wp k) t)))%R (combine W qs)))).
    - unfold vsum at 3. rewrite (rsum_swap (fun k '(doc, q) => (q : vec) k * (e_ln psi K cp k + vsum T (fun t => (doc : vec) t * e_ln psi T (wp k) t)))%R).
      apply rsum_ext. intros [doc q] _. reflexivity.
    - intros k _. rewrite (e_topic_sum T W qs (e_ln psi T (wp k)) k L). unfold e_topic. clear -L. revert qs L.
      induction W as [|doc W IH]; intros [|q qs] L; try discriminate L; [cbn; ring|]. cbn [map combine rsum].
      rewrite <- (IH qs) by (injection L; auto). ring.
  Qed.

  Lemma mix_bound_le (W qs : list vec) cp wp : length W = length qs -> Forall (proper K) qs ->
    (forall doc t, In doc W -> t < T -> (0 <= doc t)%R) ->
    (forall k, k < K -> (0 < cp k)%R) -> (forall k t, k < K -> t < T -> (0 < wp k t)%R) ->
    (mix_bound g psi K T alpha eta W qs cp wp <= ln (mix_evidence g K T alpha eta W))%R.
  Proof.
    intros L F PW PC PP. rewrite bound_melbo by exact L. unfold mix_evidence. rewrite L.
    eapply Rle_trans; [|apply (Ex_elbo K qs F (mix_joint g K T alpha eta W))]. apply Rplus_le_compat_r.
    assert (E : melbo cp wp (Nq W qs) (Mq W qs) =
                Ex K qs (fun z => melbo cp wp (fun k => of_topic (map (fun _ => 1%R) W) z k) (fun k t => of_topic (map (fun doc : vec => doc t) W) z k))).
    { unfold melbo. rewrite Ex_plus. f_equal.
      - unfold Rminus. rewrite Ex_plus, Ex_const by exact F. f_equal. symmetry. apply Ex_tangent; [exact F|]. intros j Hj.
        apply Ex_of_topic; [exact Hj|exact F|rewrite map_length; exact L].
      - rewrite Ex_vsum. apply vsum_ext. intros k Hk. unfold Rminus. rewrite Ex_plus, Ex_const by exact F. f_equal. symmetry. apply Ex_tangent; [exact F|].
        intros t Ht. apply (Ex_of_topic K qs k Hk F (map (fun doc : vec => doc t) W)). rewrite map_length. exact L. }
    rewrite E. apply Ex_mono; [exact F|]. intros z. unfold melbo, mix_joint. apply Rplus_le_compat.
    - apply Rplus_le_compat_r. apply CV; [exact PC|]. intros k Hk. specialize (PA k Hk).
      assert (0 <= of_topic (map (fun _ : vec => 1%R) W) z k)%R; [|lra]. apply of_topic_nonneg. apply Forall_forall. intros x Hx.
      apply in_map_iff in Hx as (d & <- & _). lra.
    - apply vsum_le. intros k Hk. apply Rplus_le_compat_r. apply CV; [intros; apply PP; assumption|]. intros t Ht. specialize (PE t Ht).
      assert (0 <= of_topic (map (fun doc : vec => doc t) W) z k)%R; [|lra]. apply of_topic_nonneg. apply Forall_forall. intros x Hx.
      apply in_map_iff in Hx as (d & <- & Hd). apply PW; assumption.
  Qed.

  (** Moving the parameters to prior plus expected counts. *)
  Lemma m_improves (W qs : list vec) cp wp : length W = length qs -> Forall (proper K) qs ->
    (forall doc t, In doc W -> t < T -> (0 <= doc t)%R) ->
    (forall k, k < K -> (0 < cp k)%R) -> (forall k t, k < K -> t < T -> (0 < wp k t)%R) ->
    (mix_bound g psi K T alpha eta W qs cp wp <=
     mix_bound g psi K T alpha eta W qs (fun k => alpha k + Nq W qs k) (fun k t => eta t + Mq W qs k t))%R.
  Proof.
    intros L F PW PC PP. rewrite !bound_melbo by exact L. apply Rplus_le_compat_r. unfold melbo. apply Rplus_le_compat.
    - apply Rplus_le_compat_r. rewrite tangent_self. apply CV; [exact PC|]. intros k Hk. specialize (PA k Hk).
      assert (0 <= Nq W qs k)%R; [|lra]. apply (e_topic_nonneg K); [exact Hk| |exact F]. apply Forall_forall. intros x Hx. apply in_map_iff in Hx as (d & <- & _). lra.
    - apply vsum_le. intros k Hk. apply Rplus_le_compat_r. rewrite tangent_self. apply CV; [intros; apply PP; assumption|]. intros t Ht. specialize (PE t Ht).
      assert (0 <= Mq W qs k t)%R; [|lra]. apply (e_topic_nonneg K); [exact Hk| |exact F]. apply Forall_forall. intros x Hx.
      apply in_map_iff in Hx as (d & <- & Hd). apply PW; assumption.
  Qed.

  (** Moving the topics to the softmax of their scores. *)
  Definition score (cp : vec) (wp : nat -> vec) (doc : vec) : vec :=
    fun k => (e_ln psi K cp k + vsum T (fun t => doc t * e_ln psi T (wp k) t))%R.
  Lemma topics_part (W qs : list vec) cp wp : length W = length qs ->
    (rsum (map (fun '(doc, q) => vsum K (fun k => (q : vec) k * score cp wp doc k)%R) (combine W qs)) + ents K qs)%R =
    rsum (map (fun '(doc, q) => vsum K (fun k => (q : vec) k * (score cp wp doc k - ln (q k)))%R) (combine W qs)).
  Proof using.
    revert qs. induction W as [|doc W IH]; intros [|q qs] L; try discriminate L; [unfold ents; cbn; ring|].
    cbn [combine map rsum]. rewrite <- (IH qs) by (injection L; auto). unfold ents. cbn [map rsum]. unfold entropy at 1.
    rewrite (vsum_ext K (fun k => q k * (score cp wp doc k - ln (q k)))%R (fun k => q k * score cp wp doc k + -1 * (q k * ln (q k)))%R) by (intros; ring).
    rewrite (vsum_plus K (fun k => q k * score cp wp doc k)%R), vsum_scale. ring.
  Qed.
  Lemma e_improves (W qs qs' : list vec) cp wp : 0 < K -> length W = length qs -> Forall (proper K) qs -> length qs' = length W ->
    (forall d k, d < length W -> k < K -> nth d qs' (fun _ => 0%R) k = soft K (score cp wp (nth d W (fun _ => 0%R))) k) ->
    (mix_bound g psi K T alpha eta W qs cp wp <= mix_bound g psi K T alpha eta W qs' cp wp)%R.
  Proof using.
    clear CV PA PE. intros HK L F L' E. unfold mix_bound. do 2 apply Rplus_le_compat_r.
    pose proof (topics_part W qs cp wp L) as T1. pose proof (topics_part W qs' cp wp (eq_sym L')) as T2. unfold score in T1 at 1, T2 at 1.
    rewrite T1, T2. clear T1 T2. revert qs qs' L F L' E.
    induction W as [|doc W IH]; intros [|q qs] [|q' qs'] L F L' E; try discriminate L; try discriminate L'; [apply Rle_refl|].
    cbn [combine map rsum]. inversion F as [|? ? Q F']; subst. apply Rplus_le_compat.
    - rewrite (vsum_ext K (fun k => q' k * (score cp wp doc k - ln (q' k)))%R
        (fun k => soft K (score cp wp doc) k * (score cp wp doc k - ln (soft K (score cp wp doc) k)))%R).
      + apply soft_best; assumption.
      + intros k Hk. specialize (E 0 k ltac:(cbn; lia) Hk). cbn [nth] in E. rewrite E. reflexivity.
    - apply IH; [injection L; auto|exact F'|injection L'; auto|]. intros d k Hd Hk. apply (E (S d) k); [cbn; lia|exact Hk].
  Qed.
End Bound.

(** ** The evidence is a probability *)
Section Evidence.
  Context (g : R -> R) (K T : nat) (alpha eta : vec).
  Hypothesis G : gamma_like g.
  Hypothesis HK : 0 < K.
  Hypothesis PA : forall k, k < K -> (0 < alpha k)%R.
  Hypothesis PE : forall t, t < T -> (0 < eta t)%R.
  Lemma lnB_ext n v v' : (forall i, i < n -> v i = v' i) -> lnB g n v = lnB g n v'.
  Proof. intros H. unfold lnB. rewrite (vsum_ext n v v') by exact H. f_equal. apply vsum_ext. intros. f_equal. apply H. assumption. Qed.
  Lemma of_topic_ones {A} (l : list A) z k : length l = length z -> of_topic (map (fun _ => 1%R) l) z k = n_of z k.
  Proof.
    revert z. induction l as [|x l IH]; intros [|k' z] L; try discriminate L; [reflexivity|]. cbn [map]. rewrite of_topic_cons, (IH z) by (injection L; auto). reflexivity.
  Qed.
  Lemma of_topic_zero xs z k : Forall (fun x => x = 0%R) xs -> of_topic xs z k = 0%R.
  Proof.
    intros F. revert z. induction F as [|x xs E F IH]; intros [|k' z]; try reflexivity. rewrite of_topic_cons, E, IH. destruct (_ =? _); ring.
  Qed.
  Lemma evidence_empty (W : list vec) : (forall doc t, In doc W -> t < T -> doc t = 0%R) -> mix_evidence g K T alpha eta W = 1%R.
  Proof.
    intros Z. unfold mix_evidence.
    assert (E : rsum (map (fun z => exp (mix_joint g K T alpha eta W z)) (assignments K (length W))) =
                (exp (- lnB g K alpha) * total K (length W) (fun z => exp (lnB g K (fun k => alpha k + n_of z k))))%R).
    { unfold total. rewrite <- rsum_scale, map_map. apply rsum_ext. intros z Hz. rewrite <- exp_plus. f_equal. unfold mix_joint.
      rewrite (vsum_0 K) ; [|intros k Hk; rewrite (lnB_ext T _ eta); [ring|]].
      - rewrite (lnB_ext K _ (fun k => alpha k + n_of z k)%R); [ring|]. intros k _. rewrite of_topic_ones; [reflexivity|].
        symmetry. apply (assignments_len K (length W) z Hz).
      - intros t Ht. rewrite of_topic_zero; [ring|]. apply Forall_forall. intros x Hx. apply in_map_iff in Hx as (doc & <- & Hd). apply Z; assumption. }
    rewrite E. pose proof (urn g G K HK (length W) alpha PA) as U. rewrite <- U, <- exp_plus.
    replace (- lnB g K alpha + lnB g K alpha)%R with 0%R by ring. apply exp_0.
  Qed.
  Definition one_more (doc : vec) (t : nat) : vec := fun u => (doc u + (if u =? t then 1 else 0))%R.
  Lemma of_topic_mid xs1 x xs2 z1 k' z2 k : length xs1 = length z1 ->
    of_topic (xs1 ++ x :: xs2) (z1 ++ k' :: z2) k = (of_topic (xs1 ++ xs2) (z1 ++ z2) k + (if k' =? k then x else 0))%R.
  Proof.
    intros L. unfold of_topic.
    assert (CA : forall (b : list R) (c : list nat), combine (xs1 ++ b) (z1 ++ c) = combine xs1 z1 ++ combine b c).
    { clear -L. revert z1 L. induction xs1 as [|y xs1 IH]; intros [|k z1] L b c; try discriminate L; [reflexivity|]. cbn. f_equal. apply IH. injection L; auto. }
    rewrite !CA, !map_app, !rsum_app. cbn [combine map rsum]. ring.
  Qed.
  Lemma joint_one_more W1 (doc : vec) W2 z1 k z2 t : length W1 = length z1 -> k < K -> t < T ->
    (forall d t, In d (W1 ++ doc :: W2) -> t < T -> (0 <= d t)%R) ->
    exp (mix_joint g K T alpha eta (W1 ++ one_more doc t :: W2) (z1 ++ k :: z2)) =
    (exp (mix_joint g K T alpha eta (W1 ++ doc :: W2) (z1 ++ k :: z2)) *
     ((eta t + of_topic (map (fun d : vec => d t) (W1 ++ doc :: W2)) (z1 ++ k :: z2) k) /
      vsum T (fun u => eta u + of_topic (map (fun d : vec => d u) (W1 ++ doc :: W2)) (z1 ++ k :: z2) k)))%R.
  Proof.
    intros L Hk Ht NN. set (z := z1 ++ k :: z2). set (m := fun j u => of_topic (map (fun d : vec => d u) (W1 ++ doc :: W2)) z j).
    assert (M : forall j u, of_topic (map (fun d : vec => d u) (W1 ++ one_more doc t :: W2)) z j = (m j u + (if k =? j then if u =? t then 1 else 0 else 0))%R).
    { intros j u. unfold m, z. rewrite !map_app. cbn [map]. rewrite !of_topic_mid by (rewrite map_length; exact L). unfold one_more.
      destruct (k =? j); [|ring]. destruct (u =? t); ring. }
    assert (NM : forall j u, u < T -> (0 < eta u + m j u)%R).
    { intros j u Hu. specialize (PE u Hu). assert (0 <= m j u)%R; [|lra]. apply of_topic_nonneg. apply Forall_forall. intros x Hx.
      apply in_map_iff in Hx as (d & <- & Hd). apply NN; assumption. }
    assert (PV : (0 < vsum T (fun u => eta u + m k u))%R) by (apply vsum_pos; [lia|intros; apply NM; assumption]).
    fold (m k t).
    assert (R : ((eta t + m k t) / vsum T (fun u => eta u + m k u))%R = exp (ln ((eta t + m k t) / vsum T (fun u => eta u + m k u)))%R).
    { rewrite exp_ln; [reflexivity|]. apply Rdiv_lt_0_compat; [apply NM, Ht|exact PV]. }
    change (fun u : nat => (eta u + of_topic (map (fun d : vec => d u) (W1 ++ doc :: W2)) z k)%R) with (fun u => (eta u + m k u)%R).
    change (of_topic (map (fun d : vec => d t) (W1 ++ doc :: W2)) z k) with (m k t). rewrite R, <- exp_plus. f_equal.
    unfold mix_joint. rewrite Rplus_assoc. apply f_equal2; [f_equal; apply lnB_ext; intros; rewrite !map_app; reflexivity|].
    rewrite (vsum_bump K (fun j => lnB g T (fun u => eta u + m j u) - lnB g T eta)%R
       (fun j => lnB g T (fun u => eta u + of_topic (map (fun d : vec => d u) (W1 ++ one_more doc t :: W2)) z j) - lnB g T eta)%R k
       (ln ((eta t + m k t) / vsum T (fun u => eta u + m k u)))%R Hk).
    - reflexivity.
    - rewrite (lnB_bump g G T (fun u => eta u + m k u)%R _ t Ht); [ring|intros; apply NM; assumption| |].
      + rewrite M, !Nat.eqb_refl. ring.
      + intros u _ N. rewrite M. rewrite Nat.eqb_refl, (proj2 (Nat.eqb_neq u t) N). ring.
    - intros j _ N. f_equal. apply lnB_ext. intros u _. rewrite M. rewrite (proj2 (Nat.eqb_neq k j)) by congruence. ring.
  Qed.
  Lemma evidence_token W1 (doc : vec) W2 : 0 < T -> (forall d t, In d (W1 ++ doc :: W2) -> t < T -> (0 <= d t)%R) ->
    vsum T (fun t => mix_evidence g K T alpha eta (W1 ++ one_more doc t :: W2)) = mix_evidence g K T alpha eta (W1 ++ doc :: W2).
  Proof.
    intros HT NN. unfold mix_evidence.
    transitivity (rsum (map (fun z => vsum T (fun t => exp (mix_joint g K T alpha eta (W1 ++ one_more doc t :: W2) z))) (assignments K (length (W1 ++ doc :: W2))))).
    - rewrite <- rsum_vsum. apply vsum_ext. intros t _. rewrite !app_length. reflexivity.
    - apply rsum_ext. intros z Hz. apply (assignments_len K) in Hz as [Lz Fz].
      rewrite app_length in Lz. cbn [length] in Lz.
      destruct (nth_split z 0 (n := length W1) ltac:(lia)) as (z1 & z2 & Ez & L1). set (k := nth (length W1) z 0) in Ez.
      assert (Hk : k < K) by (rewrite Forall_forall in Fz; apply Fz; rewrite Ez; apply in_or_app; right; left; reflexivity).
      rewrite Ez. rewrite (vsum_ext T _ (fun t => exp (mix_joint g K T alpha eta (W1 ++ doc :: W2) (z1 ++ k :: z2)) *
        ((eta t + of_topic (map (fun d : vec => d t) (W1 ++ doc :: W2)) (z1 ++ k :: z2) k) * / vsum T (fun u => eta u + of_topic (map (fun d : vec => d u) (W1 ++ doc :: W2)) (z1 ++ k :: z2) k)))%R).
      2:{ intros t Ht. rewrite joint_one_more by (try assumption; congruence). reflexivity. }
      rewrite vsum_scale, vsum_scale_r. rewrite Rinv_r; [ring|]. apply Rgt_not_eq. apply vsum_pos; [exact HT|].
      intros u Hu. specialize (PE u Hu). assert (0 <= of_topic (map (fun d : vec => d u) (W1 ++ doc :: W2)) (z1 ++ k :: z2) k)%R; [|lra].
      apply of_topic_nonneg. apply Forall_forall. intros x Hx. apply in_map_iff in Hx as (d & <- & Hd). apply NN; assumption.
  Qed.
End Evidence.
