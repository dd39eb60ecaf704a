(** * Inequalities for the matrix-variate topic models. *)
From Coq Require Import List Reals ZArith Arith Bool Lra Lia.
From Verif Require Import Base RealModel RealProofs VbModel VbProofs LinkModel LinkProps CtmModel CtmProofs CtmProps StmModel StmProps MtmModel.
Import ListNotations.
Open Scope nat_scope.

(** ** The matrix of the bound *)
Lemma mtm_A_symm K : symm K (mtm_A K).
Proof. intros i j _ _. unfold mtm_A, eye. rewrite (Nat.eqb_sym i j). reflexivity. Qed.
Lemma mtm_A_quad K x : 0 < K -> quad K (mtm_A K) x x = (vsum K (fun k => x k * x k) - vsum K x * vsum K x / INR K)%R.
Proof.
  intros HK. assert (HN : (0 < INR K)%R) by (apply lt_0_INR; exact HK).
  unfold quad, mtm_A.
  rewrite (vsum_ext K _ (fun i => x i * x i - x i * (vsum K x / INR K))%R).
  - rewrite vsum_minus, vsum_scale_r. field. lra.
  - intros i Hi.
    rewrite (vsum_ext K _ (fun j => eye i j * (x i * x j) - x i * / INR K * x j)%R) by (intros; field; lra).
    rewrite vsum_minus, (vsum_eye K i (fun j => x i * x j)%R Hi), vsum_scale. field. lra.
Qed.
Lemma mtm_A_centred K x : 0 < K ->
  quad K (mtm_A K) x x = vsum K (fun k => (x k - vsum K x / INR K) * (x k - vsum K x / INR K))%R.
Proof.
  intros HK. assert (HN : (0 < INR K)%R) by (apply lt_0_INR; exact HK).
  rewrite mtm_A_quad by exact HK. rewrite shift_square. field. lra.
Qed.
Lemma mtm_A_psd K : 0 < K -> psd K (mtm_A K).
Proof. intros HK x. rewrite mtm_A_centred by exact HK. apply vsum_nonneg. intros; apply Rle_0_sqr. Qed.

Lemma mtm_lse K (m h : vec) : 0 < K ->
  (ln (vsum K (fun k => exp (m k + h k))) - ln (vsum K (fun k => exp (m k)))
   <= vsum K (fun k => softmax K m k * h k) + quad K (mtm_A K) h h / 2)%R.
Proof.
  intros HK. assert (HN : (0 < INR K)%R) by (apply lt_0_INR; exact HK).
  set (c := (vsum K h / INR K)%R).
  pose proof (bohning_lse K m (fun k => h k - c)%R HK) as B. cbv beta in B.
  assert (E : ln (vsum K (fun k => exp (m k + (h k - c)))) = (ln (vsum K (fun k => exp (m k + h k))) - c)%R).
  { rewrite (vsum_ext K _ (fun k => exp (m k + h k) * exp (- c))%R).
    - rewrite vsum_scale_r, ln_mult; [rewrite ln_exp; ring|apply vsum_pos; [exact HK|intros; apply exp_pos]|apply exp_pos].
    - intros k _. rewrite <- exp_plus. f_equal. ring. }
  assert (S : vsum K (fun k => softmax K m k * (h k - c))%R = (vsum K (fun k => softmax K m k * h k) - c)%R).
  { rewrite (vsum_ext K _ (fun k => softmax K m k * h k - softmax K m k * c)%R) by (intros; ring).
    rewrite vsum_minus, vsum_scale_r, softmax_sum by exact HK. ring. }
  rewrite E, S in B. rewrite bohning_quad in B.
  assert (Z : vsum K (fun k => h k - c)%R = 0%R) by (rewrite vsum_minus, vsum_const; unfold c; field; lra).
  rewrite Z in B. rewrite mtm_A_centred by exact HK. fold c.
  pose proof (vsum_nonneg K (fun k => (h k - c) * (h k - c))%R (fun i _ => Rle_0_sqr _)) as Q. cbv beta in Q. lra.
Qed.

(** ** A step of the means with given weights [V], and two normal priors *)
Section step.
  Variables (K : nat) (A Pa Pb : mat) (V a b : vec) (N : R).
  Hypothesis HK : 0 < K.
  Hypothesis HN : (0 <= N)%R.
  Hypothesis HA : symm K A.
  Hypothesis HPa : symm K Pa.
  Hypothesis HPb : symm K Pb.
  Hypothesis Hlse : forall m h : vec,
    (ln (vsum K (fun k => exp (m k + h k))) - ln (vsum K (fun k => exp (m k)))
     <= vsum K (fun k => softmax K m k * h k) + quad K A h h / 2)%R.

  Definition surrogate (m : vec) : R :=
    (vsum K (fun k => V k * m k) - N * ln (vsum K (fun k => exp (m k)))
     - quad K Pa (fun k => m k - a k) (fun k => m k - a k) / 2
     - quad K Pb (fun k => m k - b k) (fun k => m k - b k) / 2)%R.
  Definition step_solves (m m' : vec) : Prop := forall k, k < K ->
    (vsum K (fun j => (Pa k j + Pb k j + N * A k j) * m' j)
     = V k + N * vsum K (fun j => m j * A j k) + vsum K (fun j => Pa k j * a j) + vsum K (fun j => Pb k j * b j) - N * softmax K m k)%R.

  Lemma prior_diff P (c m h : vec) : symm K P ->
    quad K P (fun k => m k + h k - c k)%R (fun k => m k + h k - c k)%R
    = (quad K P (fun k => m k - c k) (fun k => m k - c k) + 2 * (quad K P h m - quad K P h c) + quad K P h h)%R.
  Proof.
    intros HP. rewrite (quad_ext K P P (fun k => m k + h k - c k)%R (fun k => m k + h k - c k)%R (fun k => (m k - c k) + h k)%R (fun k => (m k - c k) + h k)%R);
      [|reflexivity|intros; ring|intros; ring].
    rewrite (quad_square K P (fun k => m k - c k)%R h HP), (quad_sub_r K P m c h). reflexivity.
  Qed.

  Lemma surrogate_gain m m' : step_solves m m' ->
    (surrogate m + (quad K Pa (fun k => m' k - m k) (fun k => m' k - m k) + quad K Pb (fun k => m' k - m k) (fun k => m' k - m k)
                    + N * quad K A (fun k => m' k - m k) (fun k => m' k - m k)) / 2 <= surrogate m')%R.
  Proof.
    intros HS. set (h := fun k => (m' k - m k)%R).
    assert (Em : forall k, (m k + h k)%R = m' k) by (intros; unfold h; ring).
    assert (E : (quad K Pa h m' + quad K Pb h m' + N * quad K A h m'
                 = vsum K (fun k => V k * h k) + N * quad K A h m + quad K Pa h a + quad K Pb h b - N * vsum K (fun k => softmax K m k * h k))%R).
    { rewrite <- (quad_sum K Pa Pb), <- quad_add_mat, (quad_mat K (fun i j => Pa i j + Pb i j + N * A i j)%R).
      rewrite (vsum_ext K _ (fun k => V k * h k + N * (h k * vsum K (fun j => A k j * m j)) + h k * vsum K (fun j => Pa k j * a j)
                                      + h k * vsum K (fun j => Pb k j * b j) - N * (softmax K m k * h k))%R).
      - rewrite vsum_minus, !vsum_plus, !vsum_scale, <- !quad_mat. reflexivity.
      - intros k Hk. rewrite (HS k Hk).
        rewrite (vsum_ext K (fun j => m j * A j k)%R (fun j => A k j * m j)%R) by (intros j Hj; rewrite (HA j k Hj Hk); ring). ring. }
    assert (X : forall P, quad K P h m' = (quad K P h m + quad K P h h)%R).
    { intros P. rewrite <- quad_add_r. apply quad_ext; [reflexivity|reflexivity|]. intros; symmetry; apply Em. }
    rewrite !X in E.
    assert (Pr : forall P c, symm K P -> quad K P (fun k => m' k - c k)%R (fun k => m' k - c k)%R
      = (quad K P (fun k => m k - c k) (fun k => m k - c k) + 2 * (quad K P h m - quad K P h c) + quad K P h h)%R).
    { intros P c HP. rewrite <- prior_diff by exact HP. apply quad_ext; [reflexivity| |]; intros; rewrite Em; reflexivity. }
    unfold surrogate. rewrite (Pr Pa a HPa), (Pr Pb b HPb).
    pose proof (Hlse m h) as B.
    rewrite (vsum_ext K (fun k => exp (m k + h k)) (fun k => exp (m' k))) in B by (intros; rewrite Em; reflexivity).
    pose proof (Rmult_le_compat_l N _ _ HN B) as B'.
    assert (Ev : vsum K (fun k => V k * h k)%R = (vsum K (fun k => V k * m' k) - vsum K (fun k => V k * m k))%R).
    { rewrite <- vsum_minus. apply vsum_ext. intros; unfold h; ring. }
    rewrite Ev in E. fold h. nra.
  Qed.
  Lemma surrogate_grows m m' : psd K Pa -> psd K Pb -> psd K A -> step_solves m m' -> (surrogate m <= surrogate m')%R.
  Proof.
    intros Qa Qb QA HS. pose proof (surrogate_gain m m' HS) as G.
    pose proof (Qa (fun k => m' k - m k)%R). pose proof (Qb (fun k => m' k - m k)%R). pose proof (QA (fun k => m' k - m k)%R).
    pose proof (Rmult_le_pos _ _ HN H1). lra.
  Qed.
End step.

(** The equations are solved by multiplying with an inverse. *)
Lemma inverse_solves K (M : mat) inv (r : vec) : is_inverse K M (inv M) ->
  forall k, k < K -> vsum K (fun j => M k j * vsum K (fun l => inv M j l * r l))%R = r k.
Proof. intros H k Hk. apply (is_inverse_vec K M (inv M) r H k Hk). Qed.

(** What a distribution over topics gains is at least what the expected counts gain. *)
Lemma like_minorised K T v w (m m' : vec) : 0 < K -> covers K T v -> (forall t, t < T -> (0 <= w t)%R) ->
  (vsum K (fun k => expected K T v w m k * (m' k - m k))
   - vsum T w * (ln (vsum K (fun k => exp (m' k))) - ln (vsum K (fun k => exp (m k))))
   <= log_like K T v w m' - log_like K T v w m)%R.
Proof.
  intros HK Hv Hw. rewrite !like_split by assumption.
  pose proof (expected_gain K T v w m Hv Hw (fun k => m' k - m k)%R) as G. cbv beta in G.
  rewrite (vsum_ext T _ (fun t => w t * ln (mass K v m' t) - w t * ln (mass K v m t))%R) in G.
  - rewrite vsum_minus in G. nra.
  - intros t _. replace (mass K v (fun k => m k + (m' k - m k))%R t) with (mass K v m' t); [ring|].
    apply vsum_ext. intros k _. do 2 f_equal. ring.
Qed.

(** ** The documents' distributions *)
Lemma doc_vocab_is D m k d : 0 < D -> doc_vocab D m k d = softmax D (fun d => m d k) d.
Proof. intros HD. unfold doc_vocab, col_softmax. apply vsoftmax_is. exact HD. Qed.
Lemma doc_vocab_positive K D m : 0 < D -> forall k, k < K -> positive_dist D (doc_vocab D m k).
Proof.
  intros HD k _. split.
  - intros t _. rewrite doc_vocab_is by exact HD. apply softmax_pos. exact HD.
  - rewrite (vsum_ext D _ (softmax D (fun d => m d k))); [apply softmax_sum; exact HD|]. intros; apply doc_vocab_is; exact HD.
Qed.
Lemma doc_vocab_covers K D m : 0 < K -> 0 < D -> covers K D (doc_vocab D m).
Proof. intros HK HD. apply positive_covers; [exact HK|]. apply doc_vocab_positive. exact HD. Qed.

(** ** The covariance of the topics *)
Section covariance.
  Variables K D : nat.
  Variable inv : mat -> mat.
  Hypothesis HK : 0 < K.
  Hypothesis HI : inverts K inv.
  Variable s : mtm.
  Hypothesis HVo : forall d k, d < D -> k < K -> (0 <= mt_outv s d k)%R.
  Hypothesis HVi : forall d k, d < D -> k < K -> (0 <= mt_inv s d k)%R.

  Lemma topic_cov_symm mu pre : symm K (topic_cov D mu s pre).
  Proof.
    intros i j _ _. unfold topic_cov. f_equal. f_equal; [f_equal; [f_equal; [f_equal|]|]|].
    - apply vsum_ext. intros; ring.
    - apply vsum_ext. intros; ring.
    - rewrite (Nat.eqb_sym j i). destruct (Nat.eqb_spec i j) as [->|]; reflexivity.
    - rewrite (Nat.eqb_sym j i). destruct (Nat.eqb_spec i j) as [->|]; reflexivity.
    - unfold eye. rewrite (Nat.eqb_sym j i). reflexivity.
  Qed.
  Lemma weighted_gram (c : vec) (G : mat) x : (forall d, d < D -> (0 <= c d)%R) ->
    (0 <= quad K (fun i j => vsum D (fun d => (c d * G d i) * G d j)) x x)%R.
  Proof.
    intros Hc.
    assert (E : quad K (fun i j => vsum D (fun d => (c d * G d i) * G d j))%R x x
      = vsum D (fun d => c d * (vsum K (fun i => x i * G d i) * vsum K (fun i => x i * G d i)))%R).
    { unfold quad.
      rewrite (vsum_ext D _ (fun d => vsum K (fun i => vsum K (fun j => x i * ((c d * G d i) * G d j) * x j)))%R).
      2:{ intros d _. rewrite <- (vsum_scale_r K), <- (vsum_scale K). apply vsum_ext. intros i _. rewrite <- (vsum_scale K), <- (vsum_scale K). apply vsum_ext. intros; ring. }
      rewrite (vsum_swap D K (fun d i => vsum K (fun j => x i * ((c d * G d i) * G d j) * x j))%R). apply vsum_ext. intros i _.
      rewrite (vsum_swap D K (fun d j => x i * ((c d * G d i) * G d j) * x j)%R). apply vsum_ext. intros j _.
      rewrite <- vsum_scale, <- vsum_scale_r. apply vsum_ext. intros; ring. }
    rewrite E. apply vsum_nonneg. intros d Hd. apply Rmult_le_pos; [apply Hc; exact Hd|apply Rle_0_sqr].
  Qed.
  Lemma topic_cov_posdef mu pre : (forall d, d < D -> (0 <= pre d)%R) -> posdef K (topic_cov D mu s pre).
  Proof.
    intros Hp x [k [Hk Hx]].
    rewrite (quad_ext K _ (fun i j => / (2 * INR D + 1 / 10) *
      (vsum D (fun d => (out_doc_pre * (mt_out s d i - mu i)) * (mt_out s d j - mu j))
      + vsum D (fun d => (pre d * (mt_in s d i - mt_out s d i)) * (mt_in s d j - mt_out s d j))
      + (if i =? j then vsum D (fun d => mt_outv s d i) else 0)
      + (if i =? j then vsum D (fun d => mt_inv s d i) else 0)
      + eye i j))%R x x x x); [|intros i j _ _; unfold topic_cov, Rdiv; ring|reflexivity|reflexivity].
    rewrite quad_scale. pose proof (pos_INR D). apply Rmult_lt_0_compat; [apply Rinv_0_lt_compat; lra|].
    rewrite (quad_sum K (fun i j => vsum D (fun d => (out_doc_pre * (mt_out s d i - mu i)) * (mt_out s d j - mu j))
      + vsum D (fun d => (pre d * (mt_in s d i - mt_out s d i)) * (mt_in s d j - mt_out s d j))
      + (if i =? j then vsum D (fun d => mt_outv s d i) else 0) + (if i =? j then vsum D (fun d => mt_inv s d i) else 0))%R eye).
    rewrite (quad_sum K (fun i j => vsum D (fun d => (out_doc_pre * (mt_out s d i - mu i)) * (mt_out s d j - mu j))
      + vsum D (fun d => (pre d * (mt_in s d i - mt_out s d i)) * (mt_in s d j - mt_out s d j))
      + (if i =? j then vsum D (fun d => mt_outv s d i) else 0))%R (fun i j => if i =? j then vsum D (fun d => mt_inv s d i) else 0)%R).
    rewrite (quad_sum K (fun i j => vsum D (fun d => (out_doc_pre * (mt_out s d i - mu i)) * (mt_out s d j - mu j))
      + vsum D (fun d => (pre d * (mt_in s d i - mt_out s d i)) * (mt_in s d j - mt_out s d j)))%R (fun i j => if i =? j then vsum D (fun d => mt_outv s d i) else 0)%R).
    rewrite (quad_sum K (fun i j => vsum D (fun d => (out_doc_pre * (mt_out s d i - mu i)) * (mt_out s d j - mu j)))%R
      (fun i j => vsum D (fun d => (pre d * (mt_in s d i - mt_out s d i)) * (mt_in s d j - mt_out s d j)))%R).
    pose proof (weighted_gram (fun _ => out_doc_pre) (fun d i => mt_out s d i - mu i)%R x (fun _ _ => ltac:(unfold out_doc_pre; lra))) as S1.
    pose proof (weighted_gram pre (fun d i => mt_in s d i - mt_out s d i)%R x Hp) as S2. cbv beta in S1, S2.
    rewrite !quad_diag, quad_eye.
    assert (S3 : (0 <= vsum K (fun i => vsum D (fun d => mt_outv s d i) * (x i * x i)))%R).
    { apply vsum_nonneg. intros i Hi. apply Rmult_le_pos; [apply vsum_nonneg; intros; apply HVo; assumption|apply Rle_0_sqr]. }
    assert (S4 : (0 <= vsum K (fun i => vsum D (fun d => mt_inv s d i) * (x i * x i)))%R).
    { apply vsum_nonneg. intros i Hi. apply Rmult_le_pos; [apply vsum_nonneg; intros; apply HVi; assumption|apply Rle_0_sqr]. }
    assert (S5 : (0 < vsum K (fun i => x i * x i))%R).
    { apply (vsum_pos_one K _ k Hk); [intros; apply Rle_0_sqr|].
      assert (0 <= x k * x k)%R by apply Rle_0_sqr. assert (x k * x k <> 0)%R by (apply Rmult_integral_contrapositive; split; exact Hx). lra. }
    lra.
  Qed.

  Lemma diag_of_posdef M k : posdef K M -> k < K -> (0 < M k k)%R.
  Proof.
    intros HM Hk. specialize (HM (eye k)). rewrite quad_mat, vsum_eye in HM by exact Hk.
    rewrite (vsum_ext K _ (fun j => eye k j * M k j)%R), vsum_eye in HM by (try exact Hk; intros; ring).
    apply HM. exists k. split; [exact Hk|]. unfold eye. rewrite Nat.eqb_refl. lra.
  Qed.
  Lemma in_doc_cov_pos P d : posdef K P -> d < D -> (0 < in_doc_cov K s P d)%R.
  Proof.
    intros HP Hd. unfold in_doc_cov. pose proof (pos_INR K). apply Rdiv_lt_0_compat; [|lra].
    assert (S1 : (0 <= vsum K (fun k => vsum K (fun j => (mt_in s d j - mt_out s d j) * P j k) * (mt_in s d k - mt_out s d k)))%R).
    { pose proof (posdef_psd K P HP (fun k => mt_in s d k - mt_out s d k)%R) as Q. unfold quad in Q.
      rewrite (vsum_swap K K (fun i j => (mt_in s d i - mt_out s d i) * P i j * (mt_in s d j - mt_out s d j))%R) in Q.
      rewrite (vsum_ext K _ (fun k => vsum K (fun j => (mt_in s d j - mt_out s d j) * P j k * (mt_in s d k - mt_out s d k)))%R); [exact Q|].
      intros k _. rewrite vsum_scale_r. reflexivity. }
    assert (S2 : forall V : mat, (forall d k, d < D -> k < K -> (0 <= V d k)%R) -> (0 <= vsum K (fun k => V d k * P k k))%R).
    { intros V HV. apply vsum_nonneg. intros k Hk. apply Rmult_le_pos; [apply HV; assumption|left; apply diag_of_posdef; assumption]. }
    pose proof (S2 _ HVo). pose proof (S2 _ HVi). lra.
  Qed.
  (** What the five turns leave: [cov] is of the form of [topic_cov], hence positive
      definite, and the factors of the documents are positive. *)
  Lemma cov_loop_sound mu todo : forall cov idc, (forall d, d < D -> (0 < idc d)%R) -> 0 < todo ->
    let r := cov_loop K D inv mu s todo cov idc in
    symm K (fst r) /\ posdef K (fst r) /\ (forall d, d < D -> (0 < snd r d)%R) /\ snd r = in_doc_cov K s (inv (fst r)).
  Proof.
    induction todo as [|todo IH]; intros cov idc Hidc Ht; [lia|]. cbn [cov_loop]. set (c := topic_cov D mu s (fun d => / idc d)%R).
    assert (Hp : posdef K c) by (apply topic_cov_posdef; intros d Hd; left; apply Rinv_0_lt_compat; apply Hidc; exact Hd).
    assert (Hs : symm K c) by apply topic_cov_symm.
    destruct (HI c Hs Hp) as [H1 H2]. pose proof (inverse_posdef K _ _ Hp H1 H2) as HPi.
    assert (Hidc' : forall d, d < D -> (0 < in_doc_cov K s (inv c) d)%R) by (intros; apply in_doc_cov_pos; assumption).
    destruct todo as [|todo].
    - cbn [cov_loop]. cbv zeta. cbn [fst snd]. split; [exact Hs|split; [exact Hp|split; [exact Hidc'|reflexivity]]].
    - apply IH; [exact Hidc'|lia].
  Qed.
End covariance.
