(** * Properties of the side topic model of stm_uv_vecy_bohning.py: C264-C270. *)
From Coq Require Import List Reals ZArith Arith Bool Lra Lia Permutation FunctionalExtensionality.
From Verif Require Import Base RealModel RealProofs VbModel VbProofs LinkModel CtmModel CtmProofs CtmProps StmModel StmProofs StmProps VecyModel VecyProofs.
Import ListNotations.
Open Scope nat_scope.

(** ** What training keeps *)
Section step.
  Variables K D T F P : nat.
  Variables beta fv lfv : R.
  Variable inv : nat -> mat -> mat.
  Variables W X : mat.
  Variable docLens : list Z.
  Hypothesis HK : 0 < K.
  Hypothesis HD : 0 < D.
  Hypothesis HT : 0 < T.
  Hypothesis Hb : (0 < beta)%R.
  Hypothesis Hfv : (0 < fv)%R.
  Hypothesis Hlfv : (0 < lfv)%R.
  Hypothesis IK : inverts K (inv K).
  Hypothesis IP : inverts P (inv P).
  Hypothesis IF : inverts F (inv F).
  Hypothesis HL : length docLens = D.
  Hypothesis HC : counts D T W (fun d => IZR (nth d docLens 0%Z)).
  Notation iter s := (vecy_iter K D T F P beta fv lfv inv W X (feat_cov D F fv inv X) docLens s).

  (** Positive variances, a covariance of the latent space, and a vocabulary that covers
      all words, as in new states. *)
  Definition good (s : vecy) : Prop :=
    (forall d k, d < D -> k < K -> (0 < y_varcs s d k)%R) /\ symm P (y_RY s) /\ posdef P (y_RY s) /\ covers K T (y_vocab s).

  Lemma scale_pos : (0 < sig_scale D F P)%R.
  Proof. apply (StmProps.scale_pos D F P HD). Qed.
  Lemma precision_ok s : good s -> let G := inv K (y_sigT (iter s)) in
    symm K (y_sigT (iter s)) /\ posdef K (y_sigT (iter s)) /\ symm K G /\ posdef K G.
  Proof.
    intros (HV & _) G. set (diffa := fun k f => (y_A s k f - vsum P (fun p => y_Y s k p * y_V s p f))%R).
    pose proof (sigT_symm K D F P fv lfv (y_Y s) X (y_A s) diffa (y_means s) (y_varcs s)) as S1.
    pose proof (sigT_posdef K D F P fv lfv Hfv Hlfv (y_Y s) X (y_A s) diffa (y_means s) (y_varcs s) HD HV) as P1.
    change (stm_sigT D F P fv lfv (y_Y s) X (y_A s) diffa (y_means s) (y_varcs s)) with (y_sigT (iter s)) in S1, P1.
    destruct (IK _ S1 P1) as [R1 L1]. repeat split; [exact S1|exact P1|exact (inverse_symm K _ _ S1 R1 L1)|exact (inverse_posdef K _ _ P1 R1 L1)].
  Qed.
  Lemma normal_F : feat_cov D F fv inv X = inv F (normal_matrix D 1 (1 / fv) X).
  Proof. unfold feat_cov, normal_matrix. f_equal. apply functional_extensionality. intros f. apply functional_extensionality. intros g. rewrite Rmult_1_l. reflexivity. Qed.
  Lemma normal_P V : new_RY F P fv lfv inv V = inv P (normal_matrix F (1 / fv) (1 / lfv) (fun f p => V p f)).
  Proof. unfold new_RY, normal_matrix. f_equal. apply functional_extensionality. intros f. apply functional_extensionality. intros g. ring. Qed.
  Lemma inv_fv : (0 < 1 / fv)%R. Proof. apply Rdiv_lt_0_compat; lra. Qed.
  Lemma inv_lfv : (0 < 1 / lfv)%R. Proof. apply Rdiv_lt_0_compat; lra. Qed.
  Lemma feat_ok : is_inverse F (normal_matrix D 1 (1 / fv) X) (feat_cov D F fv inv X) /\ symm F (feat_cov D F fv inv X).
  Proof.
    rewrite normal_F. pose proof (normal_symm D F 1 (1 / fv) X) as S1. pose proof (normal_posdef D F 1 (1 / fv) X ltac:(lra) inv_fv) as P1.
    destruct (IF _ S1 P1) as [R1 L1]. split; [exact R1|exact (inverse_symm F _ _ S1 R1 L1)].
  Qed.
  Lemma latent_ok V : is_inverse P (normal_matrix F (1 / fv) (1 / lfv) (fun f p => V p f)) (new_RY F P fv lfv inv V) /\
    symm P (new_RY F P fv lfv inv V) /\ posdef P (new_RY F P fv lfv inv V).
  Proof.
    rewrite normal_P. pose proof inv_fv as Q1. pose proof (normal_symm F P (1 / fv) (1 / lfv) (fun f p => V p f)) as S1.
    pose proof (normal_posdef F P (1 / fv) (1 / lfv) (fun f p => V p f) ltac:(lra) inv_lfv) as P1.
    destruct (IP _ S1 P1) as [R1 L1]. split; [exact R1|]. split; [exact (inverse_symm P _ _ S1 R1 L1)|exact (inverse_posdef P _ _ P1 R1 L1)].
  Qed.
  Lemma lens_nonneg d : d < D -> (0 <= IZR (nth d docLens 0%Z))%R.
  Proof. intros Hd. destruct HC as [HW Hn]. rewrite (Hn d Hd). apply vsum_nonneg. intros; apply HW; assumption. Qed.

  (** ** C264 *)
  (** Each word's occurrences are shared out among the topics; the words of a topic have
      probabilities in proportion to its share and the prior. *)
  Theorem C264_words s : good s -> exists N : mat, (forall k t, k < K -> t < T -> (0 <= N k t)%R) /\
    (forall t, t < T -> vsum K (fun k => N k t) = vsum D (fun d => W d t)) /\
    (forall k t, y_vocab (iter s) k t = (N k t + beta) / vsum T (fun t => N k t + beta))%R.
  Proof.
    intros (_ & _ & _ & HV). destruct HC as [HW _]. set (e := exp_means K (y_means s)).
    exists (vocab_counts K D W e (y_vocab s)). split; [|split; [|reflexivity]].
    - intros k t Hk Ht. unfold vocab_counts. apply Rmult_le_pos; [apply HV; assumption|]. apply vsum_nonneg. intros d Hd.
      apply Rmult_le_pos; [|left; apply exp_pos]. apply (quotient_nonneg K D T W HW); try assumption. intros; apply exp_pos.
    - intros t Ht. unfold vocab_counts, quotient.
      rewrite (vsum_ext K _ (fun k => vsum D (fun d => W d t / vsum K (fun j => e d j * y_vocab s j t) * (e d k * y_vocab s k t)))%R).
      2:{ intros k _. rewrite <- vsum_scale. apply vsum_ext. intros; ring. }
      rewrite (vsum_swap K D (fun k d => W d t / vsum K (fun j => e d j * y_vocab s j t) * (e d k * y_vocab s k t))%R). apply vsum_ext. intros d Hd.
      rewrite vsum_scale. pose proof (weighted_pos K T (y_vocab s) HV (e d) t (fun k _ => exp_pos _) Ht). field. lra.
  Qed.
  Lemma iter_vocab s : good s -> forall k, k < K -> positive_dist T (y_vocab (iter s) k).
  Proof.
    intros G k Hk. destruct (C264_words s G) as (N & N0 & _ & E). split.
    - intros t Ht. rewrite E. apply Rdiv_lt_0_compat; [pose proof (N0 k t Hk Ht); lra|]. apply vsum_pos; [exact HT|]. intros u Hu. pose proof (N0 k u Hk Hu). lra.
    - rewrite (vsum_ext T _ (fun t => (N k t + beta) * / vsum T (fun t => N k t + beta))%R) by (intros; apply E). rewrite vsum_scale_r. apply Rinv_r.
      assert (0 < vsum T (fun t => N k t + beta))%R; [|lra]. apply vsum_pos; [exact HT|]. intros u Hu. pose proof (N0 k u Hk Hu). lra.
  Qed.
  Lemma iter_good s : good s -> good (iter s).
  Proof.
    intros G. destruct (precision_ok s G) as (_ & _ & _ & PD). destruct (latent_ok (y_V (iter s))) as (_ & L2 & L3).
    split; [|split; [exact L2|split; [exact L3|apply positive_covers; [exact HK|apply iter_vocab; exact G]]]].
    intros d k Hd Hk. change (y_varcs (iter s) d k) with (1 / (IZR (nth d docLens 0%Z) * (INR K - 1) / INR K + isig_scale D F P * inv K (y_sigT (iter s)) k k))%R.
    pose proof (diag_pos K _ k PD Hk) as Hp. pose proof (lens_nonneg d Hd) as Hn. pose proof scale_pos as Hs.
    apply Rdiv_lt_0_compat; [lra|]. assert (0 < isig_scale D F P)%R by (apply Rdiv_lt_0_compat; lra).
    pose proof (Rmult_lt_0_compat _ _ H Hp). assert (1 <= INR K)%R by (apply (le_INR 1); lia).
    assert (0 <= IZR (nth d docLens 0%Z) * (INR K - 1) / INR K)%R; [|lra].
    apply Rmult_le_pos; [apply Rmult_le_pos; lra|]. left. apply Rinv_0_lt_compat. lra.
  Qed.

  (** ** C265 *)
  (** The map from features to topics is the regression of the means, as they were before
      this iteration, pulled towards the latent space. *)
  Theorem C265_features s k : good s -> forall a,
    (penalised D F 1 (1 / fv) X (fun d => y_means s d k) (fun f => vsum P (fun p => y_Y (iter s) k p * y_V (iter s) p f)) (y_A (iter s) k)
     <= penalised D F 1 (1 / fv) X (fun d => y_means s d k) (fun f => vsum P (fun p => y_Y (iter s) k p * y_V (iter s) p f)) a)%R.
  Proof.
    intros G. destruct feat_ok as [R1 S1]. pose proof inv_fv as Q1. apply stationary_optimal; [lra|lra|].
    apply (normal_equations D F 1 (1 / fv) X _ _ _ (feat_cov D F fv inv X) S1 R1). intros f Hf.
    change (y_A (iter s) k f) with (new_A D F P fv X (y_means s) (y_Y (iter s)) (y_V (iter s)) (feat_cov D F fv inv X) k f).
    apply vsum_ext. intros g _. rewrite Rmult_1_l. reflexivity.
  Qed.
  (** The topics' places in the latent space are the regression of the map of the iteration
      before, pulled towards the origin. *)
  Theorem C265_places s k : good s -> forall y,
    (penalised F P (1 / fv) (1 / lfv) (fun f p => y_V (iter s) p f) (y_A s k) (fun _ => 0) (y_Y (iter s) k)
     <= penalised F P (1 / fv) (1 / lfv) (fun f p => y_V (iter s) p f) (y_A s k) (fun _ => 0) y)%R.
  Proof.
    intros G. destruct (latent_ok (y_V (iter s))) as (R1 & S1 & _). pose proof inv_fv as Q1. pose proof inv_lfv as Q2. apply stationary_optimal; [lra|lra|].
    apply (normal_equations F P (1 / fv) (1 / lfv) (fun f p => y_V (iter s) p f) _ _ _ (new_RY F P fv lfv inv (y_V (iter s))) S1 R1). intros p Hp.
    change (y_Y (iter s) k p) with (new_Y F P fv (y_A s) (y_V (iter s)) (new_RY F P fv lfv inv (y_V (iter s))) k p).
    unfold new_Y. apply vsum_ext. intros q _. rewrite Rmult_0_r, Rplus_0_l. f_equal. f_equal. apply vsum_ext. intros; ring.
  Qed.

  (** The misfit of column [f] of the map for directions [v] of the latent space, by the
      precision, and the uncertainty of the places with a weight. *)
  Definition misfit (precision RY Y A : mat) (weight : R) (f : nat) (v : vec) : R :=
    (quad K precision (fun i => A i f - vsum P (fun p => Y i p * v p)) (fun i => A i f - vsum P (fun p => Y i p * v p)) + weight * quad P RY v v)%R.
  Notation precision s := (fun i j => (isig_scale D F P * inv K (y_sigT (iter s)) i j)%R).
  Definition lin (Y : mat) (v : vec) : vec := fun i => vsum P (fun p => Y i p * v p)%R.
  Lemma quad_lin G Y x y : vsum P (fun p => x p * vsum P (fun q => vsum K (fun i => vsum K (fun j => Y i p * G i j * Y j q)) * y q))%R
    = quad K G (lin Y x) (lin Y y).
  Proof.
    unfold quad, lin.
    transitivity (vsum P (fun p => vsum K (fun i => vsum K (fun j => x p * Y i p * G i j * vsum P (fun q => Y j q * y q))))%R).
    - apply vsum_ext. intros p _.
      rewrite (vsum_ext P _ (fun q => vsum K (fun i => vsum K (fun j => Y i p * G i j * (Y j q * y q))))%R).
      2:{ intros q _. rewrite <- vsum_scale_r. apply vsum_ext. intros i _. rewrite <- vsum_scale_r. apply vsum_ext. intros; ring. }
      rewrite (vsum_swap P K (fun q i => vsum K (fun j => Y i p * G i j * (Y j q * y q)))%R), <- vsum_scale. apply vsum_ext. intros i _.
      rewrite (vsum_swap P K (fun q j => Y i p * G i j * (Y j q * y q))%R), <- vsum_scale. apply vsum_ext. intros j _.
      rewrite vsum_scale. ring.
    - rewrite (vsum_swap P K (fun p i => vsum K (fun j => x p * Y i p * G i j * vsum P (fun q => Y j q * y q)))%R). apply vsum_ext. intros i _.
      rewrite (vsum_swap P K (fun p j => x p * Y i p * G i j * vsum P (fun q => Y j q * y q))%R). apply vsum_ext. intros j _.
      rewrite (vsum_ext P _ (fun p => Y i p * x p * (G i j * vsum P (fun q => Y j q * y q)))%R) by (intros; ring). rewrite vsum_scale_r. ring.
  Qed.
  Lemma latent_normal s f : good s -> let G := inv K (y_sigT (iter s)) in let v := fun p => y_V (iter s) p f in
    forall h, (sig_scale D F P * quad P (y_RY s) h v = quad K G (lin (y_Y s) h) (fun i => y_A s i f - lin (y_Y s) v i))%R.
  Proof.
    intros HG G v h. destruct (precision_ok s HG) as (_ & _ & SG & PG). fold G in SG, PG. destruct HG as (_ & SR & PR & _). pose proof scale_pos as Hs.
    set (C := fun p q => vsum K (fun i => vsum K (fun j => y_Y s i p * G i j * y_Y s j q))%R).
    set (M := fun p q => (sig_scale D F P * y_RY s p q + C p q)%R).
    assert (QM : forall x y, quad P M x y = (sig_scale D F P * quad P (y_RY s) x y + quad K G (lin (y_Y s) x) (lin (y_Y s) y))%R).
    { intros x y. unfold M. rewrite (quad_sum P (fun p q => sig_scale D F P * y_RY s p q)%R C), quad_scale. f_equal. rewrite quad_mat. apply quad_lin. }
    assert (SM : symm P M).
    { intros p q Hp Hq. unfold M. rewrite (SR p q Hp Hq). f_equal. unfold C. rewrite (vsum_swap K K (fun i j => y_Y s i p * G i j * y_Y s j q)%R).
      apply vsum_ext. intros i Hi. apply vsum_ext. intros j Hj. rewrite (SG j i Hj Hi). ring. }
    assert (PM : posdef P M).
    { intros x Hx. rewrite QM. pose proof (PR x Hx) as A1. pose proof (Rmult_lt_0_compat _ _ Hs A1).
      pose proof (posdef_psd K G PG (lin (y_Y s) x)). lra. }
    destruct (IP M SM PM) as [R1 _].
    assert (EV : forall p, p < P -> vsum P (fun q => M p q * v q)%R = vsum K (fun i => vsum K (fun j => y_Y s i p * G i j * y_A s j f))%R).
    { intros p Hp. exact (is_inverse_vec P M (inv P M) (fun q => vsum K (fun i => vsum K (fun j => y_Y s i q * G i j * y_A s j f)))%R R1 p Hp). }
    assert (EQ : quad P M h v = quad K G (lin (y_Y s) h) (fun i => y_A s i f)).
    { rewrite quad_mat. rewrite (vsum_ext P _ (fun p => h p * vsum K (fun i => vsum K (fun j => y_Y s i p * G i j * y_A s j f)))%R) by (intros p Hp; rewrite (EV p Hp); reflexivity).
      unfold quad, lin.
      rewrite (vsum_ext P _ (fun p => vsum K (fun i => vsum K (fun j => y_Y s i p * h p * (G i j * y_A s j f))))%R).
      2:{ intros p _. rewrite <- vsum_scale. apply vsum_ext. intros i _. rewrite <- vsum_scale. apply vsum_ext. intros; ring. }
      rewrite (vsum_swap P K (fun p i => vsum K (fun j => y_Y s i p * h p * (G i j * y_A s j f)))%R). apply vsum_ext. intros i _.
      rewrite (vsum_swap P K (fun p j => y_Y s i p * h p * (G i j * y_A s j f))%R). apply vsum_ext. intros j _. rewrite vsum_scale_r. ring. }
    rewrite QM in EQ. rewrite quad_sub_r. change (fun i => lin (y_Y s) v i) with (lin (y_Y s) v). lra.
  Qed.
  (** How the misfit changes in a direction. *)
  Lemma misfit_change s f weight h : good s -> let v := fun p => y_V (iter s) p f in
    misfit (precision s) (y_RY s) (y_Y s) (y_A s) weight f (fun p => v p + h p)%R =
    (misfit (precision s) (y_RY s) (y_Y s) (y_A s) weight f v + isig_scale D F P * quad K (inv K (y_sigT (iter s))) (lin (y_Y s) h) (lin (y_Y s) h)
     + weight * quad P (y_RY s) h h + 2 * (weight - 1) * quad P (y_RY s) h v)%R.
  Proof.
    intros HG v. pose proof (latent_normal s f HG h) as EN. cbv zeta in EN. fold v in EN. destruct (precision_ok s HG) as (_ & _ & SG & _). destruct HG as (_ & SR & _).
    unfold misfit. rewrite !quad_scale. set (G := inv K (y_sigT (iter s))) in *. set (r := fun i => (y_A s i f - lin (y_Y s) v i)%R).
    rewrite (quad_square P (y_RY s) v h SR).
    rewrite (quad_ext K G G (fun i => y_A s i f - vsum P (fun p => y_Y s i p * (v p + h p)))%R (fun i => y_A s i f - vsum P (fun p => y_Y s i p * (v p + h p)))%R
               (fun i => r i + - lin (y_Y s) h i)%R (fun i => r i + - lin (y_Y s) h i)%R); [|reflexivity| |].
    2,3: intros i _; unfold r, lin; rewrite (vsum_ext P _ (fun p => y_Y s i p * v p + y_Y s i p * h p)%R) by (intros; ring); rewrite vsum_plus; ring.
    rewrite (quad_square K G r (fun i => - lin (y_Y s) h i)%R SG). fold r in EN.
    assert (N1 : forall a b, quad K G (fun i => - a i)%R b = (- quad K G a b)%R).
    { intros a b. unfold quad. rewrite <- vsum_opp. apply vsum_ext. intros i _. rewrite <- vsum_opp. apply vsum_ext. intros; ring. }
    assert (N2 : forall a b, quad K G b (fun i => - a i)%R = (- quad K G b a)%R).
    { intros a b. unfold quad. rewrite <- vsum_opp. apply vsum_ext. intros i _. rewrite <- vsum_opp. apply vsum_ext. intros; ring. }
    rewrite !N1, N2. rewrite <- EN.
    change (quad K G (fun i => y_A s i f - vsum P (fun p => y_Y s i p * v p))%R (fun i => y_A s i f - vsum P (fun p => y_Y s i p * v p))%R) with (quad K G r r).
    pose proof scale_pos as Hs. unfold isig_scale. field. lra.
  Qed.
  (** The directions of the latent space are the best when the uncertainty counts once ... *)
  Theorem C265_directions s f : good s -> forall v,
    (misfit (precision s) (y_RY s) (y_Y s) (y_A s) 1 f (fun p => y_V (iter s) p f) <= misfit (precision s) (y_RY s) (y_Y s) (y_A s) 1 f v)%R.
  Proof.
    intros HG v. pose proof (misfit_change s f 1 (fun p => v p - y_V (iter s) p f)%R HG) as E. cbv zeta beta in E.
    replace (fun p => y_V (iter s) p f + (v p - y_V (iter s) p f))%R with v in E by (apply functional_extensionality; intros; ring).
    destruct (precision_ok s HG) as (_ & _ & _ & PG). destruct HG as (_ & _ & PR & _). pose proof scale_pos as Hs.
    assert (0 < isig_scale D F P)%R by (apply Rdiv_lt_0_compat; lra).
    pose proof (posdef_psd _ _ PR (fun p => v p - y_V (iter s) p f)%R). pose proof (posdef_psd _ _ PG (lin (y_Y s) (fun p => v p - y_V (iter s) p f)%R)).
    pose proof (Rmult_le_pos _ _ (Rlt_le _ _ H) H1). rewrite E. lra.
  Qed.
  (** ... but it is there once for each topic: there are always better ones, unless they are
      zero. *)
  Theorem C265_directions_refuted s f : good s -> 1 < K -> (exists p, p < P /\ y_V (iter s) p f <> 0%R) -> exists v,
    (misfit (precision s) (y_RY s) (y_Y s) (y_A s) (INR K) f v < misfit (precision s) (y_RY s) (y_Y s) (y_A s) (INR K) f (fun p => y_V (iter s) p f))%R.
  Proof.
    intros HG H1K NZ. set (v := fun p => y_V (iter s) p f). set (c := quad P (y_RY s) v v). set (g := (isig_scale D F P * quad K (inv K (y_sigT (iter s))) (lin (y_Y s) v) (lin (y_Y s) v))%R).
    destruct (precision_ok s HG) as (_ & _ & _ & PG). pose proof scale_pos as Hs.
    assert (Hi : (0 < isig_scale D F P)%R) by (apply Rdiv_lt_0_compat; lra).
    assert (Hg : (0 <= g)%R) by (apply Rmult_le_pos; [lra|apply (posdef_psd _ _ PG)]).
    assert (Hc : (0 < c)%R) by (destruct HG as (_ & _ & PR & _); apply PR; exact NZ).
    assert (HKR : (2 <= INR K)%R) by (apply (le_INR 2) in H1K; exact H1K).
    set (eps := ((INR K - 1) * c / (g + INR K * c))%R).
    assert (Hq : (0 < g + INR K * c)%R) by (pose proof (Rmult_lt_0_compat (INR K) c ltac:(lra) Hc); lra).
    assert (He : (0 < eps)%R) by (apply Rdiv_lt_0_compat; [apply Rmult_lt_0_compat; lra|exact Hq]).
    exists (fun p => y_V (iter s) p f + - eps * v p)%R. rewrite (misfit_change s f (INR K) (fun p => - eps * v p)%R HG). fold v.
    assert (Q1 : quad P (y_RY s) (fun p => - eps * v p)%R (fun p => - eps * v p)%R = (eps * eps * c)%R).
    { unfold c, quad. rewrite <- vsum_scale. apply vsum_ext. intros i _. rewrite <- vsum_scale. apply vsum_ext. intros; ring. }
    assert (Q2 : quad P (y_RY s) (fun p => - eps * v p)%R v = (- eps * c)%R).
    { unfold c, quad. rewrite <- vsum_scale. apply vsum_ext. intros i _. rewrite <- vsum_scale. apply vsum_ext. intros; ring. }
    assert (L1 : lin (y_Y s) (fun p => - eps * v p)%R = (fun i => - eps * lin (y_Y s) v i)%R).
    { apply functional_extensionality. intros i. unfold lin. rewrite <- vsum_scale. apply vsum_ext. intros; ring. }
    assert (Q3 : (isig_scale D F P * quad K (inv K (y_sigT (iter s))) (lin (y_Y s) (fun p => - eps * v p)%R) (lin (y_Y s) (fun p => - eps * v p)%R))%R = (eps * eps * g)%R).
    { rewrite L1. unfold g. rewrite <- Rmult_assoc, (Rmult_comm (eps * eps)), Rmult_assoc. f_equal. unfold quad. rewrite <- vsum_scale. apply vsum_ext. intros i _. rewrite <- vsum_scale. apply vsum_ext. intros; ring. }
    rewrite Q1, Q2, Q3. assert (EE : (eps * (g + INR K * c) = (INR K - 1) * c)%R) by (unfold eps; field; lra).
    assert (0 < eps * ((INR K - 1) * c))%R by (apply Rmult_lt_0_compat; [exact He|apply Rmult_lt_0_compat; lra]).
    assert (EE2 : (eps * (eps * (g + INR K * c)) = eps * ((INR K - 1) * c))%R) by (rewrite EE; reflexivity). lra.
  Qed.

  (** ** C268: each step of the means raises every document's posterior probability *)
  Theorem C268_means_improve s d : rising docLens -> good s -> d < D ->
    let mu := fun k => vsum F (fun f => X d f * y_A (iter s) k f)%R in
    posdef K (precision s) /\
    (log_posterior K T (y_vocab (iter s)) mu (precision s) (W d) (y_means s d)
     <= log_posterior K T (y_vocab (iter s)) mu (precision s) (W d) (y_means (iter s) d))%R.
  Proof.
    intros Hrise HG Hd mu. pose proof (iter_vocab s HG) as Hvoc. assert (Hcov : covers K T (y_vocab (iter s))) by (apply positive_covers; assumption).
    destruct (HC) as [HW Hn]. destruct (precision_ok s HG) as (_ & _ & HS & HP). set (isigT := inv K (y_sigT (iter s))) in *.
    pose proof scale_pos as Hsc. assert (Hisc : (0 < isig_scale D F P)%R) by (apply Rdiv_lt_0_compat; lra).
    set (pr := fun i j => (isig_scale D F P * isigT i j)%R).
    assert (Hp : posdef K pr). { intros x Hx. unfold pr. rewrite quad_scale. apply Rmult_lt_0_compat; [exact Hisc|apply HP; exact Hx]. }
    split; [exact Hp|].
    apply (posterior_grows K T (y_vocab (iter s)) (W d) mu (y_means s d) pr HK Hcov (fun t Ht => HW d t Hd Ht));
      [intros i j Hi Hj; unfold pr; rewrite (HS i j Hi Hj); reflexivity|apply posdef_psd; exact Hp|].
    set (N := IZR (nth d docLens 0%Z)). set (M := fun i j => (isigT i j + sig_scale D F P * N * bohning K i j)%R).
    assert (HN : (0 <= N)%R) by (apply lens_nonneg; exact Hd).
    assert (MS : symm K M). { intros i j Hi Hj. unfold M. rewrite (HS i j Hi Hj), (bohning_symm K i j Hi Hj). reflexivity. }
    assert (MP : posdef K M) by (apply posdef_add; [exact HP|apply bohning_psd; exact HK|apply Rmult_le_pos; lra]).
    destruct (IK M MS MP) as [R2 L2].
    set (r := stm_rhs K D F P X (y_A (iter s)) isigT (token_weights K T W (exp_means K (y_means s)) (y_vocab (iter s))) (fun d => IZR (nth d docLens 0%Z)) (y_means s)).
    assert (EM : forall k, y_means (iter s) d k = vsum K (fun j => r d j * (inv K M j k * sig_scale D F P))%R).
    { intros k. exact (blocks_all K D F P (inv K) isigT r docLens Hrise HL _ d k Hd). }
    intros k Hk. rewrite <- (Hn d Hd). fold N.
    rewrite (vsum_ext K _ (fun l => vsum K (fun j => (inv K M j l * M l k) * r d j))%R).
    2:{ intros l Hl. rewrite EM, <- vsum_scale. apply vsum_ext. intros j Hj. rewrite (MS l k Hl Hk). change (M k l) with (isigT k l + sig_scale D F P * N * bohning K k l)%R. unfold pr. generalize (inv K M j l). intros q.
        unfold isig_scale. field. lra. }
    rewrite (vsum_swap K K (fun l j => inv K M j l * M l k * r d j)%R).
    rewrite (vsum_ext K _ (fun j => eye k j * r d j)%R).
    2:{ intros j Hj. rewrite vsum_scale_r, (L2 j k Hj Hk). unfold eye. rewrite (Nat.eqb_sym j k). reflexivity. }
    rewrite vsum_eye by exact Hk. unfold r, stm_rhs. fold N.
    rewrite (token_weights_expected K T W (y_means s) (y_vocab (iter s)) d k Hcov). rewrite (vsoftmax_is K HK).
    replace (vsum K (fun j => vsum F (fun f => X d f * y_A (iter s) j f) * isigT j k) * isig_scale D F P)%R
      with (vsum K (fun j => pr k j * mu j))%R; [ring|].
    rewrite <- vsum_scale_r. apply vsum_ext. intros j Hj. unfold pr, mu. rewrite (HS j k Hj Hk). ring.
  Qed.

  (** ** Loops *)
  Lemma measured_good s : good s -> good (measured K s).
  Proof. exact (fun H => H). Qed.
  Lemma loop_last logged measure : forall todo itr s s', 0 < todo -> good s ->
    vecy_loop K D T F P beta fv lfv inv logged measure W X (feat_cov D F fv inv X) docLens itr todo s = Ok s' ->
    exists s0 i, good s0 /\ s' = (if logged i then measured K (iter s0) else iter s0).
  Proof.
    induction todo as [|todo IH]; intros itr s s' Ht HG E; [lia|]. cbn [vecy_loop] in E. cbv zeta in E. pose proof (iter_good s HG) as G1.
    destruct (logged itr) eqn:EL.
    - destruct (measure W X itr (measured K (iter s))) as [b|e]; [|discriminate]. cbn [bind] in E. destruct b.
      + inversion E. exists s, itr. rewrite EL. split; [exact HG|reflexivity].
      + destruct todo as [|todo]; [inversion E; exists s, itr; rewrite EL; split; [exact HG|reflexivity]|]. exact (IH (S itr) _ s' ltac:(lia) (measured_good _ G1) E).
    - destruct todo as [|todo]; [inversion E; exists s, itr; rewrite EL; split; [exact HG|reflexivity]|]. exact (IH (S itr) _ s' ltac:(lia) G1 E).
  Qed.
End step.

(** ** Training *)
Section training.
  Variables K D T F P : nat.
  Variables beta fv lfv : R.
  Variable inv : nat -> mat -> mat.
  Variable argsort : list Z -> list nat.
  Variables W X : mat.
  Variable docLens : list Z.
  Hypothesis HL : length docLens = D.
  Hypothesis HS : sorts docLens (argsort docLens).
  Let sorted := map (fun i => nth i docLens 0%Z) (argsort docLens).
  Lemma idx_perm : Permutation (argsort docLens) (seq 0 D).
  Proof. destruct HS as [H _]. rewrite HL in H. exact H. Qed.
  Lemma sorted_len : length sorted = D.
  Proof. unfold sorted. rewrite map_length, (Permutation_length idx_perm). apply seq_length. Qed.
  Lemma sorted_at i : i < D -> nth i sorted 0%Z = nth (nth i (argsort docLens) 0) docLens 0%Z.
  Proof. exact (sorted_nth D docLens (argsort docLens) HL HS i). Qed.
  Lemma sorted_rises : rising sorted.
  Proof. exact (sorted_rising D (inv 0) W docLens (argsort docLens) HL HS). Qed.
  Lemma sorted_counts : counts D T W (fun d => IZR (nth d docLens 0%Z)) -> counts D T (rows (argsort docLens) W) (fun d => IZR (nth d sorted 0%Z)).
  Proof.
    intros [HW Hn]. split.
    - intros d t Hd Ht. apply HW; [apply perm_lt; [exact idx_perm|exact Hd]|exact Ht].
    - intros d Hd. rewrite sorted_at by exact Hd. apply Hn. apply perm_lt; [exact idx_perm|exact Hd].
  Qed.
  Definition start (s : vecy) : vecy :=
    {| y_means := rows (argsort docLens) (y_means s); y_exp := y_exp s; y_varcs := rows (argsort docLens) (y_varcs s); y_vocab := y_vocab s;
       y_sigT := y_sigT s; y_A := y_A s; y_Y := y_Y s; y_V := y_V s; y_RY := y_RY s |}.
  Lemma start_good s : good K D T P s -> good K D T P (start s).
  Proof.
    intros (A & B). split; [|exact B]. intros d k Hd Hk. cbn [start y_varcs]. apply A; [apply perm_lt; [exact idx_perm|exact Hd]|exact Hk].
  Qed.
  Lemma start_follows s : follows D (argsort docLens) (start s) s.
  Proof. repeat split. Qed.

  (** After any number of iterations the words of each topic have positive probabilities
      with sum one. *)
  Theorem C264_training logged measure iterations s o : 0 < K -> 0 < D -> 0 < T -> (0 < beta)%R -> (0 < fv)%R -> (0 < lfv)%R ->
    inverts K (inv K) -> inverts P (inv P) -> counts D T W (fun d => IZR (nth d docLens 0%Z)) -> good K D T P s ->
    vecy_train K D T F P beta fv lfv inv argsort true logged measure iterations W X docLens s = Ok o ->
    forall k, k < K -> positive_dist T (o_vocab o k).
  Proof.
    intros HK HD HT Hb Hfv Hlfv IK IP HC HG E k Hk. unfold vecy_train in E. cbn [negb] in E. fold (start s) in E. fold sorted in E.
    destruct (vecy_loop _ _ _ _ _ _ _ _ _ _ _ _ _ _ _ _ _ _) as [s'|e] eqn:EL; [|discriminate]. cbn [bind] in E.
    destruct iterations as [|iterations]; [discriminate|]. cbn [Nat.eqb] in E. inversion E; subst o; clear E. cbn [o_vocab].
    destruct (loop_last K D T F P beta fv lfv inv (rows (argsort docLens) W) (rows (argsort docLens) X) sorted HK HD HT Hb Hfv Hlfv IK IP sorted_len (sorted_counts HC)
                logged measure (S iterations) 0 (start s) s' ltac:(lia) (start_good s HG) EL) as (s0 & i & G0 & ->).
    pose proof (iter_vocab K D T F P beta fv lfv inv (rows (argsort docLens) W) (rows (argsort docLens) X) sorted HT Hb (sorted_counts HC) s0 G0 k Hk) as H.
    destruct (logged i); exact H.
  Qed.

  (** ** C266 *)
  Definition same_model (o : vecy_result) (p : vecy) : Prop :=
    o_A o = y_A p /\ o_Y o = y_Y p /\ o_V o = y_V p /\ o_RY o = y_RY p /\ o_vocab o = y_vocab p /\
    (forall i j, o_sigT o i j = y_sigT p i j * sig_scale D F P)%R /\ o_RA o = feat_cov D F fv inv X.
  (** Whatever order documents of the same length get, training is that in the caller's
      order, where each document has its own length; only the weights stay sorted. *)
  Theorem C266_callers_order logged measure iterations s :
    sorts (map Z.of_nat (argsort docLens)) (argsort (map Z.of_nat (argsort docLens))) -> numbering_free D measure -> 0 < iterations ->
    alike (fun o p => same_model o p /\ o_lens o = docLens /\ forall d, d < D ->
             o_means o d = y_means p d /\ o_varcs o d = y_varcs p d /\ o_exp o d = y_exp p (nth d (argsort docLens) 0))
      (vecy_train K D T F P beta fv lfv inv argsort true logged measure iterations W X docLens s)
      (plain_loop K D T F P beta fv lfv inv logged measure W X (feat_cov D F fv inv X) (fun d => IZR (nth d docLens 0%Z)) 0 iterations s).
  Proof.
    intros HB HM Hi. unfold vecy_train. cbn [negb]. fold (start s). fold sorted. pose proof idx_perm as HP.
    rewrite (feat_cov_rows D F fv inv (argsort docLens) X (rows (argsort docLens) X) HP (fun _ _ => eq_refl)).
    pose proof (loop_follows K D T F P beta fv lfv inv (argsort docLens) W X (rows (argsort docLens) W) (rows (argsort docLens) X)
                  (feat_cov D F fv inv X) (fun d => IZR (nth d docLens 0%Z)) logged measure sorted HP sorted_rises sorted_len (fun _ _ => eq_refl) (fun _ _ => eq_refl)
                  (fun i H => f_equal IZR (sorted_at i H)) HM iterations 0 (start s) s (start_follows s) (or_introl Hi)) as L.
    destruct (vecy_loop _ _ _ _ _ _ _ _ _ _ _ _ _ _ _ _ _ _) as [s'|e]; destruct (plain_loop _ _ _ _ _ _ _ _ _ _ _ _ _ _ _ _ _ _) as [p|e']; cbn [bind alike] in L |- *; try contradiction; [|exact L].
    replace (iterations =? 0) with false by (symmetry; apply Nat.eqb_neq; lia). cbn [alike]. destruct L as ((LF & L1 & L2 & L3 & L4 & L5) & L6 & L7).
    destruct (sorts_inverse D (argsort docLens) (argsort (map Z.of_nat (argsort docLens))) HP HB) as [HPB HI].
    split; [|split].
    - unfold same_model. cbn [o_A o_Y o_V o_RY o_vocab o_sigT o_RA]. rewrite L1, L2, L3, L4, L5, L6. repeat split.
    - cbn [o_lens]. set (back := argsort (map Z.of_nat (argsort docLens))) in *.
      assert (LB : length back = D) by (rewrite (Permutation_length HPB); apply seq_length).
      transitivity (map (fun d => nth d docLens 0%Z) (seq 0 D)).
      2:{ rewrite <- HL. symmetry. apply list_nth_seq. }
      transitivity (map (fun d => nth (nth d back 0) sorted 0%Z) (seq 0 D)).
      + rewrite <- (map_map (fun d => nth d back 0) (fun i => nth i sorted 0%Z)). f_equal. rewrite <- LB. apply list_nth_seq.
      + apply map_ext_in. intros d Hd. apply in_seq in Hd. rewrite sorted_at by (apply perm_lt; [exact HPB|lia]). rewrite HI by lia. reflexivity.
    - intros d Hd. cbn [o_means o_varcs o_exp]. unfold rows. pose proof (perm_lt D _ d HPB Hd) as Hx. destruct (LF _ Hx) as [E1 E2].
      rewrite E1, E2, (HI d Hd), (L7 d Hd). repeat split.
  Qed.

  (** ** C267 *)
  (** If the last iteration has been measured, the weights are those of the means, but in
      the order of the lengths. *)
  Theorem C267_sorted_weights logged measure iterations s o : (forall i, logged i = true) ->
    sorts (map Z.of_nat (argsort docLens)) (argsort (map Z.of_nat (argsort docLens))) ->
    vecy_train K D T F P beta fv lfv inv argsort true logged measure iterations W X docLens s = Ok o ->
    forall i, i < D -> o_exp o i = exp_means K (o_means o) (nth i (argsort docLens) 0).
  Proof.
    intros HG HB E i Hi. unfold vecy_train in E. cbn [negb] in E. fold (start s) in E. fold sorted in E.
    assert (C : forall todo itr s s', 0 < todo -> vecy_loop K D T F P beta fv lfv inv logged measure (rows (argsort docLens) W) (rows (argsort docLens) X)
              (feat_cov D F fv inv (rows (argsort docLens) X)) sorted itr todo s = Ok s' -> y_exp s' = exp_means K (y_means s')).
    { clear - HG. induction todo as [|todo IH]; intros itr s s' Ht E; [lia|]. cbn [vecy_loop] in E. cbv zeta in E. rewrite HG in E.
      destruct (measure _ _ itr _) as [b|e]; [|discriminate]. cbn [bind] in E. destruct b; [inversion E; reflexivity|].
      destruct todo as [|todo]; [inversion E; reflexivity|]. exact (IH _ _ s' ltac:(lia) E). }
    destruct (vecy_loop _ _ _ _ _ _ _ _ _ _ _ _ _ _ _ _ _ _) as [s'|e] eqn:EL; [|discriminate]. cbn [bind] in E.
    destruct iterations as [|iterations]; [discriminate|]. cbn [Nat.eqb] in E. apply C in EL; [|lia]. inversion E; subst o; clear E. cbn [o_exp o_means].
    rewrite EL. unfold exp_means, rows. rewrite (sorts_inverse' D (argsort docLens) _ idx_perm HB i Hi). reflexivity.
  Qed.

  (** ** C270 *)
  Theorem C270_sparse_features logged iterations s : 0 < iterations ->
    exists o, vecy_train K D T F P beta fv lfv inv argsort true logged (fun _ _ _ _ => Ok false) iterations W X docLens s = Ok o.
  Proof.
    clear HS HL. intros Hi. unfold vecy_train. cbn [negb].
    assert (C : forall W X RA docLens todo itr s, exists s', vecy_loop K D T F P beta fv lfv inv logged (fun _ _ _ _ => Ok false) W X RA docLens itr todo s = Ok s').
    { clear. intros W X RA docLens. induction todo as [|todo IH]; intros itr s; [exists s; reflexivity|]. cbn [vecy_loop bind]. cbv zeta. destruct (logged itr); apply IH. }
    match goal with |- context [vecy_loop _ _ _ _ _ _ _ _ _ _ _ ?w ?x ?r ?l ?i ?t ?s] => destruct (C w x r l t i s) as (s' & ->) end.
    cbn [bind]. replace (iterations =? 0) with false by (symmetry; apply Nat.eqb_neq; lia). eexists. reflexivity.
  Qed.
  Theorem C270_dense_features_refuted logged measure iterations s :
    vecy_train K D T F P beta fv lfv inv argsort false logged measure iterations W X docLens s = Raise AttributeError.
  Proof. reflexivity. Qed.
  Theorem C270_no_iterations_refuted logged measure s :
    vecy_train K D T F P beta fv lfv inv argsort true logged measure 0 W X docLens s = Raise UnboundLocalError.
  Proof. reflexivity. Qed.
End training.

(** The documents in another order give the same model, and the same means and variances
    for each document. *)
Theorem C266_order_of_documents K D T F P beta fv lfv inv argsort W X docLens idx logged measure iterations s expMeans' :
  (forall l, length l = D -> sorts l (argsort l)) -> length docLens = D -> Permutation idx (seq 0 D) -> numbering_free D measure -> 0 < iterations ->
  alike (fun o' o => (o_A o' = o_A o /\ o_Y o' = o_Y o /\ o_V o' = o_V o /\ o_RY o' = o_RY o /\ o_RA o' = o_RA o /\ o_vocab o' = o_vocab o /\
                      forall i j, o_sigT o' i j = o_sigT o i j) /\
                     forall d, d < D -> o_means o' d = o_means o (nth d idx 0) /\ o_varcs o' d = o_varcs o (nth d idx 0))
    (vecy_train K D T F P beta fv lfv inv argsort true logged measure iterations (rows idx W) (rows idx X) (map (fun i => nth i docLens 0%Z) idx)
       {| y_means := rows idx (y_means s); y_exp := expMeans'; y_varcs := rows idx (y_varcs s); y_vocab := y_vocab s; y_sigT := y_sigT s;
          y_A := y_A s; y_Y := y_Y s; y_V := y_V s; y_RY := y_RY s |})
    (vecy_train K D T F P beta fv lfv inv argsort true logged measure iterations W X docLens s).
Proof.
  intros HA HL HP HM Hi. set (lens' := map (fun i => nth i docLens 0%Z) idx).
  set (s' := {| y_means := rows idx (y_means s); y_exp := expMeans'; y_varcs := rows idx (y_varcs s); y_vocab := y_vocab s; y_sigT := y_sigT s;
                y_A := y_A s; y_Y := y_Y s; y_V := y_V s; y_RY := y_RY s |}).
  assert (LI : length idx = D) by (rewrite (Permutation_length HP); apply seq_length).
  assert (LL : length lens' = D) by (unfold lens'; rewrite map_length; exact LI).
  assert (LA : forall l, length l = D -> length (map Z.of_nat (argsort l)) = D).
  { intros l Hl. destruct (HA l Hl) as [H _]. rewrite map_length, (Permutation_length H), seq_length. exact Hl. }
  pose proof (C266_callers_order K D T F P beta fv lfv inv argsort W X docLens HL (HA _ HL) logged measure iterations s (HA _ (LA _ HL)) HM Hi) as H1.
  pose proof (C266_callers_order K D T F P beta fv lfv inv argsort (rows idx W) (rows idx X) lens' LL (HA _ LL) logged measure iterations s' (HA _ (LA _ LL)) HM Hi) as H2.
  assert (FS : follows D idx s' s) by (repeat split).
  assert (Hn : forall i, i < D -> IZR (nth i lens' 0%Z) = IZR (nth (nth i idx 0) docLens 0%Z)).
  { intros i H. f_equal. unfold lens'. rewrite (nth_indep _ 0%Z (nth 0 docLens 0%Z)) by (rewrite map_length; lia). exact (map_nth (fun i => nth i docLens 0%Z) idx 0 i). }
  pose proof (plain_loop_follows K D T F P beta fv lfv inv idx W X (rows idx W) (rows idx X) (feat_cov D F fv inv X) (fun d => IZR (nth d docLens 0%Z))
                (fun d => IZR (nth d lens' 0%Z)) logged measure HP (fun _ _ => eq_refl) (fun _ _ => eq_refl) Hn HM iterations 0 s' s FS (or_introl Hi)) as H3.
  pose proof (feat_cov_rows D F fv inv idx X (rows idx X) HP (fun _ _ => eq_refl)) as EF. rewrite EF in H2.
  destruct (vecy_train K D T F P beta fv lfv inv argsort true logged measure iterations (rows idx W) (rows idx X) lens' s') as [o'|e'];
  destruct (vecy_train K D T F P beta fv lfv inv argsort true logged measure iterations W X docLens s) as [o|e];
  destruct (plain_loop K D T F P beta fv lfv inv logged measure (rows idx W) (rows idx X) (feat_cov D F fv inv X) (fun d => IZR (nth d lens' 0%Z)) 0 iterations s') as [p'|f'];
  destruct (plain_loop K D T F P beta fv lfv inv logged measure W X (feat_cov D F fv inv X) (fun d => IZR (nth d docLens 0%Z)) 0 iterations s) as [p|f];
  cbn [alike] in H1, H2, H3 |- *; try contradiction; [|congruence].
  destruct H1 as ((A1 & A2 & A3 & A4 & A5 & A6 & A7) & _ & A8). destruct H2 as ((B1 & B2 & B3 & B4 & B5 & B6 & B7) & _ & B8).
  destruct H3 as ((C0 & C1 & C2 & C3 & C4 & C5) & C6 & _).
  split; [repeat split; try congruence; intros i j; rewrite A6, B6, C6; reflexivity|].
  intros d Hd. destruct (B8 d Hd) as (E1 & E2 & _). destruct (C0 d Hd) as (E3 & E4). destruct (A8 (nth d idx 0) (perm_lt D idx d HP Hd)) as (E5 & E6 & _). split; congruence.
Qed.

(** ** C269: queries *)
Theorem C269_query_improves K D T F inv W n perp lastPerp iterations X A sigT vocab q q' :
  0 < K -> counts D T W n -> covers K T vocab -> symm K (inv K sigT) -> psd K (inv K sigT) ->
  (forall d, d < D -> is_inverse K (lhs K n (inv K sigT) d) (inv K (lhs K n (inv K sigT) d))) ->
  vecy_query K D T F inv W n perp lastPerp iterations X A sigT vocab q = Ok q' ->
  forall d, d < D -> let mu := fun k => vsum F (fun f => X d f * A k f)%R in
  (log_posterior K T vocab mu (inv K sigT) (W d) (q_means q d) <= log_posterior K T vocab mu (inv K sigT) (W d) (q_means q' d))%R.
Proof.
  intros HK HC Hv HS HP HI E d Hd mu. unfold vecy_query in E. destruct (iterations =? 0); [inversion E; right; reflexivity|]. destruct (D =? 1); [discriminate|]. inversion E; subst; clear E.
  assert (Hpr : forall d k, d < D -> k < K -> stm_prior K (inv K sigT) (stm_mean F X A) d k = vsum K (fun j => inv K sigT k j * stm_mean F X A d j)%R).
  { intros d' k _ Hk. apply vsum_ext. intros j Hj. rewrite (HS j k Hj Hk). ring. }
  cbn [q_means].
  match goal with |- context [query_loop K T W n (inv K) false perp ?i ?v ?p ?va ?it ?td ?lp ?s] =>
    destruct (loop_grows K D T W n (inv K) perp i v p va (stm_mean F X A) HK HC Hv HS HP HI Hpr td it lp s eq_refl eq_refl) as [B [_ G]] end.
  rewrite B. apply (G d Hd).
Qed.
(** The same as a query of stm_yv_bohning, which does a hundred iterations or more. *)
Theorem C269_same_as_stm_yv K D T F inv W n perp lastPerp iterations X A sigT vocab q : 100 <= iterations ->
  vecy_query K D T F inv W n perp lastPerp iterations X A sigT vocab q = stm_query K D T W n (inv K) perp lastPerp iterations F X A sigT vocab q.
Proof.
  intros H. unfold vecy_query, stm_query. rewrite (Nat.max_l _ _ H). replace (iterations =? 0) with false by (symmetry; apply Nat.eqb_neq; lia). reflexivity.
Qed.
Theorem C269_no_iterations K D T F inv W n perp lastPerp X A sigT vocab q :
  vecy_query K D T F inv W n perp lastPerp 0 X A sigT vocab q = Ok q.
Proof. reflexivity. Qed.
Theorem C269_single_document_refuted K T F inv W n perp lastPerp iterations X A sigT vocab q : 0 < iterations ->
  vecy_query K 1 T F inv W n perp lastPerp iterations X A sigT vocab q = Raise IndexError.
Proof. intros H. unfold vecy_query. replace (iterations =? 0) with false by (symmetry; apply Nat.eqb_neq; lia). reflexivity. Qed.

(** ** A corpus of a document with a word and an empty document *)
Definition vinv (m : nat) : mat -> mat := if m =? 2 then inv2 else fun M _ _ => (/ M 0%nat 0%nat)%R.
Lemma vinv2 : inverts 2 (vinv 2).
Proof. exact inv2_inverts. Qed.
Lemma vinv1 : inverts 1 (vinv 1).
Proof.
  intros M _ HP. assert (H0 : (0 < M 0%nat 0%nat)%R).
  { assert (H : (0 < quad 1 M (fun _ => 1) (fun _ => 1))%R) by (apply HP; exists 0; split; [lia|lra]). unfold quad, vsum in H. cbn [seq map rsum] in H. lra. }
  change (vinv 1 M) with (fun _ _ : nat => (/ M 0%nat 0%nat)%R).
  split; intros i j Hi Hj; assert (i = 0) by lia; assert (j = 0) by lia; subst; unfold vsum, eye; cbn [seq map rsum Nat.eqb]; field; lra.
Qed.
Definition the_word : mat := pair_rows (fun _ => 1%R) (fun _ => 0%R).
Definition the_feature : mat := pair_rows (fun _ => 0%R) (fun _ => 1%R).
Definition begin : vecy :=
  {| y_means := fun d k => if (d =? 1) && (k =? 0) then 2%R else 0%R; y_exp := ones; y_varcs := ones; y_vocab := ones; y_sigT := none;
     y_A := none; y_Y := none; y_V := none; y_RY := ones |}.
Notation small logged measure iterations :=
  (vecy_train 2 2 1 1 1 1 1 1 vinv argsort2 true logged measure iterations the_word the_feature [1; 0]%Z begin).
Lemma small_counts : counts 2 1 the_word (fun d => IZR (nth d [1; 0]%Z 0%Z)).
Proof.
  split; [intros d t _ _; unfold the_word, pair_rows; destruct (d =? 0); lra|].
  intros d Hd. unfold the_word, pair_rows, vsum. destruct d as [|[|d]]; [| |lia]; cbn [seq map rsum nth Nat.eqb]; lra.
Qed.
Lemma begin_good : good 2 2 1 1 begin.
Proof.
  split; [|split; [|split]].
  - intros d k _ _. cbn [begin y_varcs]. unfold ones. lra.
  - intros i j _ _. reflexivity.
  - intros x (p & Hp & Hx). assert (p = 0) by lia. subst p. unfold quad, vsum. cbn [begin y_RY seq map rsum]. unfold ones.
    assert (0 < x 0%nat * x 0%nat)%R; [|lra]. destruct (Rtotal_order (x 0) 0) as [H|[H|H]]; [nra|contradiction|nra].
  - split; [intros; cbn [begin y_vocab]; unfold ones; lra|]. intros t Ht. exists 0. split; [lia|]. cbn [begin y_vocab]. unfold ones. lra.
Qed.
Section small.
  Let W := rows [1; 0] the_word.
  Let X := rows [1; 0] the_feature.
  Notation iter s := (vecy_iter 2 2 1 1 1 1 1 1 vinv W X (feat_cov 2 1 1 vinv X) [0; 1]%Z s).
  Lemma small_sorted : counts 2 1 W (fun d => IZR (nth d [0; 1]%Z 0%Z)).
  Proof. exact (sorted_counts 2 1 argsort2 the_word [1; 0]%Z eq_refl (argsort2_sorts [1; 0]%Z eq_refl) small_counts). Qed.
  Definition fading (s : vecy) (a : R) : Prop :=
    good 2 2 1 1 s /\ (y_means s 0%nat 0%nat = a /\ y_means s 0%nat 1%nat = 0 /\ y_means s 1%nat 0%nat = 0 /\ y_means s 1%nat 1%nat = 0)%R /\
    (forall k, k < 2 -> y_Y s k 0%nat = 0%R).
  Lemma fading_step s a : fading s a -> fading (iter s) (a / 2)%R.
  Proof.
    intros (HG & (M00 & M01 & M10 & M11) & HY). pose proof small_sorted as HC.
    pose proof (iter_good 2 2 1 1 1 1 1 1 vinv W X [0; 1]%Z ltac:(lia) ltac:(lia) ltac:(lia) ltac:(lra) ltac:(lra) ltac:(lra) vinv2 vinv1 eq_refl HC s HG) as G1.
    destruct (precision_ok 2 2 1 1 1 1 1 1 vinv W X [0; 1]%Z ltac:(lia) ltac:(lra) ltac:(lra) vinv2 s HG) as (_ & _ & HS & HP).
    pose proof (iter_vocab 2 2 1 1 1 1 1 1 vinv W X [0; 1]%Z ltac:(lia) ltac:(lra) HC s HG) as HV.
    set (s' := iter s) in *. set (G := vinv 2 (y_sigT s')) in *.
    assert (V0 : y_V s' 0%nat 0%nat = 0%R).
    { change (y_V s' 0%nat 0%nat) with (new_V 2 2 1 1 vinv G (y_A s) (y_Y s) (y_RY s) 0 0). unfold new_V, vsum. cbn [seq map rsum].
      rewrite !HY by lia. ring. }
    assert (Y0 : forall k, k < 2 -> y_Y s' k 0%nat = 0%R).
    { intros k Hk. change (y_Y s' k 0%nat) with (new_Y 1 1 1 (y_A s) (y_V s') (y_RY s') k 0). unfold new_Y, vsum. cbn [seq map rsum]. rewrite V0. ring. }
    assert (EA : forall k, k < 2 -> y_A s' k 0%nat = (y_means s 0%nat k / 2)%R).
    { intros k Hk. change (y_A s' k 0%nat) with (new_A 2 1 1 1 X (y_means s) (y_Y s') (y_V s') (feat_cov 2 1 1 vinv X) k 0).
      unfold new_A, feat_cov, vinv, vsum. cbn [seq map rsum Nat.eqb]. rewrite V0. unfold X, rows, the_feature, pair_rows. cbn [nth Nat.eqb]. field. }
    assert (V1 : forall k, k < 2 -> y_vocab s' k 0 = 1%R).
    { intros k Hk. destruct (HV k Hk) as [_ E]. unfold vsum in E. cbn [seq map rsum] in E. lra. }
    assert (Hsc : (0 < sig_scale 2%nat 1%nat 1%nat)%R) by (apply StmProps.scale_pos; lia).
    assert (Hii : (isig_scale 2%nat 1%nat 1%nat * sig_scale 2%nat 1%nat 1%nat = 1)%R) by (unfold isig_scale; field; lra).
    set (r := stm_rhs 2 2 1 1 X (y_A s') G (token_weights 2 1 W (exp_means 2 (y_means s)) (y_vocab s')) (fun d => IZR (nth d [0; 1]%Z 0%Z)) (y_means s)).
    assert (EM : forall d k, d < 2 -> y_means s' d k = vsum 2 (fun j => r d j * (vinv 2%nat (fun i j => G i j + sig_scale 2%nat 1%nat 1%nat * IZR (nth d [0; 1]%Z 0%Z) * bohning 2%nat i j) j k * sig_scale 2%nat 1%nat 1%nat))%R).
    { intros d k Hd. refine (blocks_all 2 2 1 1 (vinv 2) G r [0; 1]%Z _ eq_refl _ d k Hd). intros i j Hi Hj.
      destruct i as [|[|i]]; destruct j as [|[|j]]; cbn [nth length] in *; lia. }
    assert (R0 : forall j, j < 2 -> r 0 j = ((y_A s' 0%nat 0%nat * G 0%nat j + y_A s' 1%nat 0%nat * G 1%nat j) * isig_scale 2%nat 1%nat 1%nat)%R).
    { intros j Hj. unfold r, stm_rhs, token_weights, quotient. cbn [nth]. rewrite (vsum_ext 1 _ (fun _ => 0)%R).
      2:{ intros t Ht. change (W 0%nat t) with 0%R. unfold Rdiv. ring. }
      rewrite vsum_zero. unfold vsum at 1. cbn [seq map rsum]. unfold vsum at 1 2. cbn [seq map rsum]. change (X 0%nat 0%nat) with 1%R. ring. }
    assert (R1 : forall j, j < 2 -> r 1 j = 0%R).
    { intros j Hj. unfold r, stm_rhs, token_weights, quotient. cbn [nth].
      assert (E0 : forall k, exp_means 2 (y_means s) 1 k = exp (y_means s 1%nat k - vmax 2 (y_means s 1%nat))) by reflexivity.
      assert (Hm : vmax 2 (y_means s 1%nat) = 0%R) by (unfold vmax; cbn; rewrite ?M10, ?M11; unfold Rmax; destruct (Rle_dec _ _); lra).
      assert (E1 : forall k, k < 2 -> exp (y_means s 1%nat k - vmax 2 (y_means s 1%nat)) = 1%R).
      { intros k Hk. rewrite Hm. replace (y_means s 1%nat k) with 0%R by (destruct k as [|[|k]]; [symmetry; exact M10|symmetry; exact M11|lia]). rewrite Rminus_0_r. apply exp_0. }
      unfold vsoftmax, vsum. cbn [seq map rsum]. rewrite !E0, !V1, !E1 by lia. change (X 1%nat 0%nat) with 0%R. change (W 1%nat 0%nat) with 1%R. rewrite M10, M11. field. }
    split; [exact G1|]. split; [|exact Y0].
    assert (EG : (fun i j => G i j + sig_scale 2%nat 1%nat 1%nat * IZR (nth 0%nat [0; 1]%Z 0%Z) * bohning 2%nat i j)%R = G).
    { apply functional_extensionality. intros i. apply functional_extensionality. intros j. cbn [nth]. ring. }
    assert (M0 : forall k, k < 2 -> y_means s' 0%nat k = y_A s' k 0%nat).
    { intros k Hk. rewrite EM, EG by lia. destruct (vinv2 G HS HP) as [I1 _]. set (N := vinv 2 G) in *.
      unfold vsum. cbn [seq map rsum]. rewrite !R0 by lia. pose proof (I1 0 k ltac:(lia) Hk) as A0. pose proof (I1 1 k ltac:(lia) Hk) as A1.
      unfold vsum in A0, A1. cbn [seq map rsum] in A0, A1.
      transitivity ((isig_scale 2%nat 1%nat 1%nat * sig_scale 2%nat 1%nat 1%nat) * (y_A s' 0%nat 0%nat * (G 0%nat 0%nat * N 0%nat k + (G 0%nat 1%nat * N 1%nat k + 0)) + y_A s' 1%nat 0%nat * (G 1%nat 0%nat * N 0%nat k + (G 1%nat 1%nat * N 1%nat k + 0))))%R; [ring|].
      rewrite Hii, A0, A1. destruct k as [|[|k]]; [| |lia]; unfold eye; cbn [Nat.eqb]; ring. }
    assert (M1 : forall k, k < 2 -> y_means s' 1%nat k = 0%R).
    { intros k Hk. rewrite EM by lia. unfold vsum. cbn [seq map rsum]. rewrite !R1 by lia. ring. }
    rewrite !M0, !M1, !EA, M00, M01 by lia. repeat split. lra.
  Qed.
  Lemma measured_fading s a : fading s a -> fading (measured 2 s) a.
  Proof. exact (fun H => H). Qed.
  Lemma small_loop logged : forall todo itr s a, (0 < a)%R -> 0 < todo -> fading s a -> exists s' b, (0 < b)%R /\ fading s' b /\
    (y_exp s' 0 1 = exp (- b)%R \/ logged (itr + todo - 1) = false /\ y_exp s' 0 1 = exp (- (2 * b))%R) /\
    (logged (itr + todo - 1) = false -> y_exp s' 0 1 = exp (- (2 * b))%R) /\
    vecy_loop 2 2 1 1 1 1 1 1 vinv logged (fun _ _ _ _ => Ok false) W X (feat_cov 2 1 1 vinv X) [0; 1]%Z itr todo s = Ok s'.
  Proof.
    assert (ME : forall s a, (0 < a)%R -> fading s a -> exp_means 2 (y_means s) 0 1 = exp (- a)).
    { intros s a Ha (_ & (M00 & M01 & _) & _). unfold exp_means. assert (Hm : vmax 2 (y_means s 0%nat) = a).
      { unfold vmax. cbn. rewrite ?M00, ?M01. unfold Rmax. destruct (Rle_dec _ _); lra. }
      rewrite Hm, M01. f_equal. lra. }
    induction todo as [|todo IH]; intros itr s a Ha Ht HF; [lia|]. pose proof (fading_step s a HF) as H1. cbn [vecy_loop]. cbv zeta.
    destruct todo as [|todo].
    - replace (itr + 1 - 1) with itr by lia. destruct (logged itr) eqn:EL; cbn [bind].
      + exists (measured 2 (iter s)), (a / 2)%R. split; [lra|]. split; [exact H1|]. split; [left; exact (ME (iter s) (a / 2)%R ltac:(lra) H1)|]. split; [discriminate|reflexivity].
      + exists (iter s), (a / 2)%R. split; [lra|]. split; [exact H1|].
        assert (E : (y_exp (iter s) 0%nat 1%nat = exp (- (2 * (a / 2))))%R) by (replace (2 * (a / 2))%R with a by lra; exact (ME s a Ha HF)).
        split; [right; split; [reflexivity|exact E]|]. split; [intros _; exact E|reflexivity].
    - replace (itr + S (S todo) - 1) with (S itr + S todo - 1) by lia.
      destruct (logged itr); cbn [bind]; apply (IH (S itr) _ (a / 2)%R); try lia; try lra; exact H1.
  Qed.
End small.
Lemma small_train logged iterations : 0 < iterations -> exists o b, small logged (fun _ _ _ _ => Ok false) iterations = Ok o /\ (0 < b)%R /\
  (o_means o 0%nat 0%nat = 0 /\ o_means o 0%nat 1%nat = 0 /\ o_means o 1%nat 0%nat = b /\ o_means o 1%nat 1%nat = 0)%R /\ (o_exp o 0%nat 1%nat < 1)%R /\
  (logged (iterations - 1) = false -> o_exp o 0 1 = exp (- (2 * b))%R).
Proof.
  intros Hi. unfold vecy_train. cbn [negb]. change (argsort2 [1; 0]%Z) with [1; 0]. cbn [map nth].
  change (argsort2 [Z.of_nat 1; Z.of_nat 0]) with [1; 0].
  match goal with |- context [vecy_loop _ _ _ _ _ _ _ _ _ _ _ _ _ _ _ 0 iterations ?s0] => set (s := s0) end.
  assert (HF : fading s 2).
  { split; [exact (start_good 2 2 1 1 argsort2 [1; 0]%Z eq_refl (argsort2_sorts [1; 0]%Z eq_refl) begin begin_good)|]. split; [|reflexivity]. repeat split. }
  destruct (small_loop logged iterations 0 s 2 ltac:(lra) Hi HF) as (s' & b & Hb & (_ & (M00 & M01 & M10 & M11) & _) & HE & HE2 & EL). rewrite EL. cbn [bind].
  replace (iterations =? 0) with false by (symmetry; apply Nat.eqb_neq; lia). eexists _, b. split; [reflexivity|]. cbn [o_means o_exp]. unfold rows. cbn [nth].
  split; [exact Hb|]. split; [repeat split; assumption|]. split; [|exact HE2].
  rewrite <- exp_0. destruct HE as [-> | [_ ->]]; apply exp_increasing; lra.
Qed.

(** The weights returned are not those of the means returned, whatever the number of
    iterations and the measurements made: documents are not in the same order. *)
Theorem C267_order_refuted logged iterations : 0 < iterations -> exists o, small logged (fun _ _ _ _ => Ok false) iterations = Ok o /\
  o_exp o 0%nat 1%nat <> exp_means 2 (o_means o) 0 1.
Proof.
  intros Hi. destruct (small_train logged iterations Hi) as (o & b & E & Hb & (M00 & M01 & _) & HL & _). exists o. split; [exact E|].
  unfold exp_means. assert (Hm : vmax 2 (o_means o 0%nat) = 0%R).
  { unfold vmax. cbn. rewrite ?M00, ?M01. unfold Rmax. destruct (Rle_dec _ _); lra. }
  rewrite Hm, M01, Rminus_0_r, exp_0. lra.
Qed.
(** Without a measurement after the last iteration they belong to the means before it. *)
Theorem C267_stale_refuted logged iterations : 0 < iterations -> logged (iterations - 1) = false -> exists o,
  small logged (fun _ _ _ _ => Ok false) iterations = Ok o /\ o_exp o 0%nat 1%nat <> exp_means 2 (o_means o) (nth 0 (argsort2 [1; 0]%Z) 0) 1.
Proof.
  intros Hi HG. destruct (small_train logged iterations Hi) as (o & b & E & Hb & (_ & _ & M10 & M11) & _ & HE). exists o. split; [exact E|].
  change (nth 0 (argsort2 [1; 0]%Z) 0) with 1. rewrite (HE HG). unfold exp_means. assert (Hm : vmax 2 (o_means o 1%nat) = b).
  { unfold vmax. cbn. rewrite ?M10, ?M11. unfold Rmax. destruct (Rle_dec _ _); lra. }
  rewrite Hm, M11. intros C. apply exp_inv in C. lra.
Qed.

(** ** Examples *)
Example C264_case : exists o, small (fun _ => false) (fun _ _ _ _ => Ok false) 3 = Ok o /\ forall k, k < 2 -> positive_dist 1 (o_vocab o k).
Proof.
  destruct (small_train (fun _ => false) 3 ltac:(lia)) as (o & b & E & _). exists o. split; [exact E|].
  exact (C264_training 2 2 1 1 1 1 1 1 vinv argsort2 the_word the_feature [1; 0]%Z eq_refl (argsort2_sorts [1; 0]%Z eq_refl) (fun _ => false) (fun _ _ _ _ => Ok false) 3 begin o
           ltac:(lia) ltac:(lia) ltac:(lia) ltac:(lra) ltac:(lra) ltac:(lra) vinv2 vinv1 small_counts begin_good E).
Qed.
(** A map and places other than zero give directions other than zero. *)
Definition pulled : vecy :=
  {| y_means := none; y_exp := ones; y_varcs := ones; y_vocab := ones; y_sigT := none; y_A := fun k _ => if k =? 0 then 1%R else 0%R;
     y_Y := fun k _ => if k =? 0 then 1%R else 0%R; y_V := none; y_RY := ones |}.
Example C265_case : good 2 2 1 1 pulled /\
  (exists p, p < 1 /\ y_V (vecy_iter 2 2 1 1 1 1 1 1 vinv none none (feat_cov 2 1 1 vinv none) [0; 0]%Z pulled) p 0 <> 0%R).
Proof.
  assert (HG : good 2 2 1 1 pulled) by exact begin_good. split; [exact HG|].
  assert (HC : counts 2 1 none (fun d => IZR (nth d [0; 0]%Z 0%Z))).
  { split; [intros; unfold none; lra|]. intros d Hd. unfold none. rewrite vsum_zero. destruct d as [|[|d]]; [reflexivity|reflexivity|lia]. }
  exists 0. split; [lia|].
  set (s' := vecy_iter 2 2 1 1 1 1 1 1 vinv none none (feat_cov 2 1 1 vinv none) [0; 0]%Z pulled).
  destruct (precision_ok 2 2 1 1 1 1 1 1 vinv none none [0; 0]%Z ltac:(lia) ltac:(lra) ltac:(lra) vinv2 pulled HG) as (_ & _ & HS & HP). fold s' in HS, HP.
  pose proof (diag_pos 2 _ 0 HP ltac:(lia)) as Hg. cbv beta in Hg.
  assert (Hsc : (0 < sig_scale 2%nat 1%nat 1%nat)%R) by (apply StmProps.scale_pos; lia).
  change (y_V s' 0%nat 0%nat) with (new_V 2 2 1 1 vinv (vinv 2 (y_sigT s')) (y_A pulled) (y_Y pulled) (y_RY pulled) 0 0).
  set (g := vinv 2 (y_sigT s')) in *.
  unfold new_V, vinv at 1, vsum. cbn [seq map rsum Nat.eqb pulled y_A y_Y y_RY]. unfold ones.
  match goal with |- ?x <> _ => replace x with (g 0%nat 0%nat / (sig_scale 2%nat 1%nat 1%nat + g 0%nat 0%nat))%R by (field; lra) end.
  assert (0 < g 0%nat 0%nat / (sig_scale 2%nat 1%nat 1%nat + g 0%nat 0%nat))%R by (apply Rdiv_lt_0_compat; lra). lra.
Qed.
(** Stopping when the lengths in the state have been read does not depend on the order. *)
Example C266_case : numbering_free 2 (fun _ _ itr _ => Ok (itr =? 5)) /\
  sorts (map Z.of_nat (argsort2 [1; 0]%Z)) (argsort2 (map Z.of_nat (argsort2 [1; 0]%Z))) /\ (forall l, length l = 2 -> sorts l (argsort2 l)).
Proof. split; [intros ? ? ? ? ? ? ? ? _ _ _ _; reflexivity|]. split; [apply argsort2_sorts; reflexivity|exact argsort2_sorts]. Qed.
Example C267_case : exists o, small (fun _ => true) (fun _ _ _ _ => Ok false) 3 = Ok o /\
  o_exp o 0%nat = exp_means 2 (o_means o) 1 /\ o_exp o 1%nat = exp_means 2 (o_means o) 0.
Proof.
  destruct (small_train (fun _ => true) 3 ltac:(lia)) as (o & b & E & _). exists o. split; [exact E|].
  pose proof (C267_sorted_weights 2 2 1 1 1 1 1 1 vinv argsort2 the_word the_feature [1; 0]%Z eq_refl (argsort2_sorts [1; 0]%Z eq_refl) (fun _ => true)
                (fun _ _ _ _ => Ok false) 3 begin o (fun _ => eq_refl) (argsort2_sorts [1; 0]%Z eq_refl) E) as H.
  split; [exact (H 0 ltac:(lia))|exact (H 1 ltac:(lia))].
Qed.
Example C268_case : rising [0; 1]%Z /\ good 2 2 1 1 (start argsort2 [1; 0]%Z begin) /\ counts 2 1 (rows [1; 0] the_word) (fun d => IZR (nth d [0; 1]%Z 0%Z)).
Proof.
  split; [|split; [exact (start_good 2 2 1 1 argsort2 [1; 0]%Z eq_refl (argsort2_sorts [1; 0]%Z eq_refl) begin begin_good)|exact small_sorted]].
  intros i j Hi Hj. destruct i as [|[|i]]; destruct j as [|[|j]]; cbn [nth length] in *; lia.
Qed.
Example C269_case : exists q', vecy_query 2 2 2 1 vinv two_words four (fun _ => 0%R) 0 7 the_feature ones eye two_topics
    {| q_means := two_means; q_exp := two_means; q_varcs := two_means |} = Ok q' /\
  forall d, d < 2 -> (log_posterior 2 2 two_topics (fun k => vsum 1 (fun f => the_feature d f * ones k f)) (inv2 eye) (two_words d) (two_means d)
                      <= log_posterior 2 2 two_topics (fun k => vsum 1 (fun f => the_feature d f * ones k f)) (inv2 eye) (two_words d) (q_means q' d))%R.
Proof.
  eexists. split; [reflexivity|].
  apply (C269_query_improves 2 2 2 1 vinv two_words four (fun _ => 0%R) 0 7 the_feature ones eye two_topics
           {| q_means := two_means; q_exp := two_means; q_varcs := two_means |}); [lia|exact two_counts|exact (positive_covers 2 2 _ ltac:(lia) two_dists)| | | |reflexivity].
  - intros i j Hi Hj. change (vinv 2) with inv2. rewrite !inv2_eye by assumption. apply (eye_symm 2); assumption.
  - intros x. change (vinv 2) with inv2. rewrite (quad_ext 2 (inv2 eye) eye x x x x inv2_eye (fun _ _ => eq_refl) (fun _ _ => eq_refl)). apply eye_psd.
  - intros d _. apply inv2_lhs. unfold four. lra.
Qed.
Example C270_case : exists o, small (fun i => i =? 0) (fun _ _ _ _ => Ok false) 2 = Ok o.
Proof. exact (C270_sparse_features 2 2 1 1 1 1 1 1 vinv argsort2 the_word the_feature [1; 0]%Z (fun i => i =? 0) 2 begin ltac:(lia)). Qed.

Print Assumptions C264_words.
Print Assumptions C265_features.
Print Assumptions C265_places.
Print Assumptions C265_directions.
Print Assumptions C265_directions_refuted.
Print Assumptions C268_means_improve.
Print Assumptions C264_training.
Print Assumptions C266_callers_order.
Print Assumptions C267_sorted_weights.
Print Assumptions C270_sparse_features.
Print Assumptions C270_dense_features_refuted.
Print Assumptions C270_no_iterations_refuted.
Print Assumptions C266_order_of_documents.
Print Assumptions C269_query_improves.
Print Assumptions C269_same_as_stm_yv.
Print Assumptions C269_no_iterations.
Print Assumptions C269_single_document_refuted.
Print Assumptions C267_order_refuted.
Print Assumptions C267_stale_refuted.
