(** * Lemmas about the side topic model of stm_uv_vecy_bohning.py. *)
From Coq Require Import List Reals ZArith Arith Bool Lra Lia Permutation FunctionalExtensionality.
From Verif Require Import Base RealModel RealProofs VbModel VbProofs LinkModel CtmModel CtmProofs CtmProps StmModel StmProofs StmProps VecyModel.
Import ListNotations.
Open Scope nat_scope.

(** ** Training in the caller's order, one document at a time with its own length *)
Section plain.
  Variables K D T F P : nat.
  Variables beta fv lfv : R.
  Variable inv : nat -> mat -> mat.
  Definition plain_iter (W X RA : mat) (n : vec) (s : vecy) : vecy :=
    let '(sigT, V, RY, Y, A) := vecy_maps K D F P fv lfv inv X RA s in
    let isigT := inv K sigT in
    let e := exp_means K (y_means s) in
    let vocab := vocab_update K D T W beta e (y_vocab s) in
    let r := stm_rhs K D F P X A isigT (token_weights K T W e vocab) n (y_means s) in
    {| y_means := fun d k => vsum K (fun j => r d j * (inv K (fun i j => isigT i j + sig_scale D F P * n d * bohning K i j) j k * sig_scale D F P))%R;
       y_exp := e;
       y_varcs := fun d k => (1 / (n d * (INR K - 1) / INR K + isig_scale D F P * isigT k k))%R;
       y_vocab := vocab; y_sigT := sigT; y_A := A; y_Y := Y; y_V := V; y_RY := RY |}.
  Fixpoint plain_loop (logged : nat -> bool) (measure : mat -> mat -> nat -> vecy -> res bool) (W X RA : mat) (n : vec)
           (itr todo : nat) (s : vecy) : res vecy :=
    match todo with
    | 0 => Ok s
    | S todo =>
      let s := plain_iter W X RA n s in
      if logged itr then
        let s := measured K s in
        do stop <- measure W X itr s;
        if stop : bool then Ok s else plain_loop logged measure W X RA n (S itr) todo s
      else plain_loop logged measure W X RA n (S itr) todo s
    end.

  (** Row [i] of the one is row [idx i] of the other. *)
  Definition follows (idx : list nat) (s p : vecy) : Prop :=
    (forall i, i < D -> y_means s i = y_means p (nth i idx 0) /\ y_varcs s i = y_varcs p (nth i idx 0)) /\
    y_vocab s = y_vocab p /\ y_A s = y_A p /\ y_Y s = y_Y p /\ y_V s = y_V p /\ y_RY s = y_RY p.
  Definition follows_all (idx : list nat) (s p : vecy) : Prop :=
    follows idx s p /\ y_sigT s = y_sigT p /\ forall i, i < D -> y_exp s i = y_exp p (nth i idx 0).
  (** A measurement that does not depend on the order of the documents. *)
  Definition numbering_free (measure : mat -> mat -> nat -> vecy -> res bool) : Prop :=
    forall idx W X W' X' itr s p, Permutation idx (seq 0 D) ->
      (forall i, i < D -> W' i = W (nth i idx 0)) -> (forall i, i < D -> X' i = X (nth i idx 0)) -> follows_all idx s p ->
      measure W' X' itr s = measure W X itr p.

  Lemma maps_follow idx X X' RA s p : Permutation idx (seq 0 D) -> (forall i, i < D -> X' i = X (nth i idx 0)) -> follows idx s p ->
    vecy_maps K D F P fv lfv inv X' RA s = vecy_maps K D F P fv lfv inv X RA p.
  Proof.
    intros HP HX (HF & HV & HA & HY & HVV & HR). unfold vecy_maps. rewrite HA, HY, HVV, HR.
    set (diffa := fun k f => (y_A p k f - vsum P (fun q => y_Y p k q * y_V p q f))%R).
    assert (ES : stm_sigT D F P fv lfv (y_Y p) X' (y_A p) diffa (y_means s) (y_varcs s) = stm_sigT D F P fv lfv (y_Y p) X (y_A p) diffa (y_means p) (y_varcs p)).
    { apply functional_extensionality. intros i. apply functional_extensionality. intros j. unfold stm_sigT. f_equal; [f_equal|].
      - rewrite <- (vsum_permuted D idx (fun d => (y_means p d i - vsum F (fun f => X d f * y_A p i f)) * (y_means p d j - vsum F (fun f => X d f * y_A p j f)))%R HP).
        apply vsum_ext. intros d Hd. destruct (HF d Hd) as [-> _]. rewrite (HX d Hd). reflexivity.
      - destruct (i =? j); [|reflexivity]. rewrite <- (vsum_permuted D idx (fun d => y_varcs p d i) HP).
        apply vsum_ext. intros d Hd. destruct (HF d Hd) as [_ ->]. reflexivity. }
    cbv zeta. rewrite ES. f_equal. unfold new_A. apply functional_extensionality. intros k. apply functional_extensionality. intros f.
    apply vsum_ext. intros g _. f_equal. f_equal. rewrite <- (vsum_permuted D idx (fun d => X d g * y_means p d k)%R HP).
    apply vsum_ext. intros d Hd. destruct (HF d Hd) as [-> _]. rewrite (HX d Hd). reflexivity.
  Qed.
  Lemma vocab_follow idx W W' e e' v : Permutation idx (seq 0 D) -> (forall i, i < D -> W' i = W (nth i idx 0)) -> (forall i, i < D -> e' i = e (nth i idx 0)) ->
    vocab_update K D T W' beta e' v = vocab_update K D T W beta e v.
  Proof.
    intros HP HW HE. unfold vocab_update, vocab_counts. f_equal. apply functional_extensionality. intros k. apply functional_extensionality. intros t. do 2 f_equal.
    rewrite <- (vsum_permuted D idx (fun d => quotient K W e v d t * e d k)%R HP). apply vsum_ext. intros d Hd. unfold quotient. rewrite (HW d Hd), (HE d Hd). reflexivity.
  Qed.
  Lemma plain_follows idx W X W' X' RA n n' s p : Permutation idx (seq 0 D) ->
    (forall i, i < D -> W' i = W (nth i idx 0)) -> (forall i, i < D -> X' i = X (nth i idx 0)) -> (forall i, i < D -> n' i = n (nth i idx 0)) ->
    follows idx s p -> follows_all idx (plain_iter W' X' RA n' s) (plain_iter W X RA n p).
  Proof.
    intros HP HW HX Hn HF. unfold plain_iter. rewrite (maps_follow idx X X' RA s p HP HX HF).
    destruct (vecy_maps K D F P fv lfv inv X RA p) as [[[[sigT V] RY] Y] A].
    destruct HF as (HF & HV & HA & HY & HVV & HR).
    assert (HE : forall i, i < D -> exp_means K (y_means s) i = exp_means K (y_means p) (nth i idx 0)).
    { intros i Hi. unfold exp_means. destruct (HF i Hi) as [-> _]. reflexivity. }
    rewrite HV, (vocab_follow idx W W' _ _ (y_vocab p) HP HW HE).
    split; [split; [|repeat split]|split; [reflexivity|exact HE]]. intros i Hi. cbn [y_means y_varcs]. rewrite (Hn i Hi). split; [|reflexivity].
    apply functional_extensionality. intros k. apply vsum_ext. intros j _. f_equal. unfold stm_rhs, token_weights, quotient.
    rewrite (Hn i Hi), (HX i Hi), (HW i Hi), (HE i Hi). destruct (HF i Hi) as [-> _]. reflexivity.
  Qed.
  Lemma measured_follows idx s p : follows_all idx s p -> follows_all idx (measured K s) (measured K p).
  Proof.
    intros ((HF & HV) & HS & _). split; [split; [exact HF|exact HV]|split; [exact HS|]]. intros i Hi. cbn [measured y_exp]. unfold exp_means.
    destruct (HF i Hi) as [-> _]. reflexivity.
  Qed.
  Lemma trivial_perm i : i < D -> nth i (seq 0 D) 0 = i.
  Proof. intros H. rewrite seq_nth by exact H. reflexivity. Qed.
  Lemma blocks_follow W X RA docLens s : rising docLens -> length docLens = D ->
    let s' := vecy_iter K D T F P beta fv lfv inv W X RA docLens s in
    let p' := plain_iter W X RA (fun d => IZR (nth d docLens 0%Z)) s in
    (forall d, d < D -> y_means s' d = y_means p' d) /\ y_exp s' = y_exp p' /\ y_varcs s' = y_varcs p' /\ y_vocab s' = y_vocab p' /\
    y_sigT s' = y_sigT p' /\ y_A s' = y_A p' /\ y_Y s' = y_Y p' /\ y_V s' = y_V p' /\ y_RY s' = y_RY p'.
  Proof.
    intros HR HL. unfold vecy_iter, plain_iter. destruct (vecy_maps K D F P fv lfv inv X RA s) as [[[[sigT V] RY] Y] A]. cbv zeta.
    cbn [y_means y_exp y_varcs y_vocab y_sigT y_A y_Y y_V y_RY]. repeat split. intros d Hd. apply functional_extensionality. intros k.
    exact (blocks_all K D F P (inv K) (inv K sigT) _ docLens HR HL _ d k Hd).
  Qed.
  Lemma sorted_follows idx W X W' X' RA n docLens s p : Permutation idx (seq 0 D) -> rising docLens -> length docLens = D ->
    (forall i, i < D -> W' i = W (nth i idx 0)) -> (forall i, i < D -> X' i = X (nth i idx 0)) -> (forall i, i < D -> IZR (nth i docLens 0%Z) = n (nth i idx 0)) ->
    follows idx s p -> follows_all idx (vecy_iter K D T F P beta fv lfv inv W' X' RA docLens s) (plain_iter W X RA n p).
  Proof.
    intros HP HR HL HW HX Hn HF.
    pose proof (plain_follows idx W X W' X' RA n (fun d => IZR (nth d docLens 0%Z)) s p HP HW HX Hn HF) as ((G1 & G2 & G3 & G4 & G5 & G6) & G7 & G8).
    destruct (blocks_follow W' X' RA docLens s HR HL) as (B1 & B2 & B3 & B4 & B5 & B6 & B7 & B8 & B9).
    unfold follows_all, follows. rewrite B2, B3, B4, B5, B6, B7, B8, B9. repeat split; try assumption.
    - rewrite (B1 i H). apply G1. exact H.
    - apply G1. exact H.
  Qed.

  Definition alike {A B} (rel : A -> B -> Prop) (r : res A) (r' : res B) : Prop :=
    match r, r' with Ok a, Ok b => rel a b | Raise e, Raise e' => e = e' | _, _ => False end.
  Lemma loop_follows idx W X W' X' RA n logged measure docLens : Permutation idx (seq 0 D) -> rising docLens -> length docLens = D ->
    (forall i, i < D -> W' i = W (nth i idx 0)) -> (forall i, i < D -> X' i = X (nth i idx 0)) -> (forall i, i < D -> IZR (nth i docLens 0%Z) = n (nth i idx 0)) ->
    numbering_free measure -> forall todo itr s p, follows idx s p -> 0 < todo \/ follows_all idx s p ->
    alike (follows_all idx) (vecy_loop K D T F P beta fv lfv inv logged measure W' X' RA docLens itr todo s) (plain_loop logged measure W X RA n itr todo p).
  Proof.
    intros HP HR HL HW HX Hn HM. induction todo as [|todo IH]; intros itr s p HF HZ; [destruct HZ as [HZ|HZ]; [lia|exact HZ]|].
    cbn [vecy_loop plain_loop]. cbv zeta. pose proof (sorted_follows idx W X W' X' RA n docLens s p HP HR HL HW HX Hn HF) as G.
    destruct (logged itr); [|apply IH; [apply G|right; exact G]]. apply measured_follows in G.
    rewrite (HM idx W X W' X' itr _ _ HP HW HX G). destruct (measure W X itr _) as [b|e]; cbn [bind alike]; [|reflexivity].
    destruct b; [exact G|]. apply IH; [apply G|right; exact G].
  Qed.
  Lemma plain_loop_follows idx W X W' X' RA n n' logged measure : Permutation idx (seq 0 D) ->
    (forall i, i < D -> W' i = W (nth i idx 0)) -> (forall i, i < D -> X' i = X (nth i idx 0)) -> (forall i, i < D -> n' i = n (nth i idx 0)) ->
    numbering_free measure -> forall todo itr s p, follows idx s p -> 0 < todo \/ follows_all idx s p ->
    alike (follows_all idx) (plain_loop logged measure W' X' RA n' itr todo s) (plain_loop logged measure W X RA n itr todo p).
  Proof.
    intros HP HW HX Hn HM. induction todo as [|todo IH]; intros itr s p HF HZ; [destruct HZ as [HZ|HZ]; [lia|exact HZ]|].
    cbn [plain_loop]. cbv zeta. pose proof (plain_follows idx W X W' X' RA n n' s p HP HW HX Hn HF) as G.
    destruct (logged itr); [|apply IH; [apply G|right; exact G]]. apply measured_follows in G.
    rewrite (HM idx W X W' X' itr _ _ HP HW HX G). destruct (measure W X itr _) as [b|e]; cbn [bind alike]; [|reflexivity].
    destruct b; [exact G|]. apply IH; [apply G|right; exact G].
  Qed.
  Lemma feat_cov_rows idx X X' : Permutation idx (seq 0 D) -> (forall i, i < D -> X' i = X (nth i idx 0)) -> feat_cov D F fv inv X' = feat_cov D F fv inv X.
  Proof.
    intros HP HX. unfold feat_cov. f_equal. apply functional_extensionality. intros f. apply functional_extensionality. intros g. f_equal.
    rewrite <- (vsum_permuted D idx (fun d => X d f * X d g)%R HP). apply vsum_ext. intros d Hd. rewrite (HX d Hd). reflexivity.
  Qed.
End plain.

(** ** Least squares *)
Lemma sum_sq_ge m (u v : vec) : (vsum m (fun i => u i * u i) + 2 * vsum m (fun i => u i * v i) <= vsum m (fun i => (u i + v i) * (u i + v i)))%R.
Proof.
  rewrite (vsum_ext m (fun i => (u i + v i) * (u i + v i))%R (fun i => (u i * u i + 2 * (u i * v i)) + v i * v i)%R) by (intros; ring).
  rewrite !vsum_plus, vsum_scale. assert (0 <= vsum m (fun i => v i * v i))%R by (apply vsum_nonneg; intros; apply Rle_0_sqr). lra.
Qed.
(** The penalised sum of squares of the coefficients [a], pulled towards [w]. *)
Definition penalised (D F : nat) (c1 c2 : R) (X : mat) (m w a : vec) : R :=
  (c1 * vsum D (fun d => (m d - vsum F (fun f => X d f * a f)) * (m d - vsum F (fun f => X d f * a f)))
   + c2 * vsum F (fun f => (a f - w f) * (a f - w f)))%R.
Lemma stationary_optimal D F c1 c2 X m w a : (0 <= c1)%R -> (0 <= c2)%R ->
  (forall f, f < F -> (c1 * vsum D (fun d => X d f * (m d - vsum F (fun g => X d g * a g))) = c2 * (a f - w f))%R) ->
  forall b, (penalised D F c1 c2 X m w a <= penalised D F c1 c2 X m w b)%R.
Proof.
  intros H1 H2 HS b. set (h := fun f => (b f - a f)%R). set (r := fun d => (m d - vsum F (fun f => X d f * a f))%R).
  assert (E1 : vsum D (fun d => (m d - vsum F (fun f => X d f * b f)) * (m d - vsum F (fun f => X d f * b f)))%R
               = vsum D (fun d => (r d + - vsum F (fun f => X d f * h f)) * (r d + - vsum F (fun f => X d f * h f)))%R).
  { apply vsum_ext. intros d _. replace (vsum F (fun f => X d f * b f))%R with (vsum F (fun f => X d f * a f) + vsum F (fun f => X d f * h f))%R; [unfold r; ring|].
    rewrite <- vsum_plus. apply vsum_ext. intros f _. unfold h. ring. }
  assert (E2 : vsum F (fun f => (b f - w f) * (b f - w f))%R = vsum F (fun f => ((a f - w f) + h f) * ((a f - w f) + h f))%R).
  { apply vsum_ext. intros f _. unfold h. ring. }
  unfold penalised. rewrite E1, E2. fold (r).
  pose proof (sum_sq_ge D r (fun d => - vsum F (fun f => X d f * h f))%R) as G1. pose proof (sum_sq_ge F (fun f => a f - w f)%R h) as G2. cbv beta in G1, G2.
  pose proof (Rmult_le_compat_l c1 _ _ H1 G1) as L1. pose proof (Rmult_le_compat_l c2 _ _ H2 G2) as L2.
  assert (Z : (c1 * vsum D (fun d => r d * - vsum F (fun f => X d f * h f)) + c2 * vsum F (fun f => (a f - w f) * h f))%R = 0%R).
  { rewrite (vsum_ext D _ (fun d => vsum F (fun f => - (X d f * r d * h f)))%R).
    2:{ intros d _. rewrite vsum_opp, Ropp_mult_distr_r_reverse. f_equal. rewrite <- vsum_scale. apply vsum_ext. intros; ring. }
    rewrite (vsum_swap D F (fun d f => - (X d f * r d * h f))%R), <- !vsum_scale, <- vsum_plus. rewrite (vsum_ext F _ (fun _ => 0%R)); [apply vsum_zero|].
    intros f Hf. rewrite vsum_opp, vsum_scale_r.
    replace (c2 * ((a f - w f) * h f))%R with (c2 * (a f - w f) * h f)%R by ring. rewrite <- (HS f Hf). unfold r. ring. }
  change (fun d => ((m d - vsum F (fun f => X d f * a f)) * (m d - vsum F (fun f => X d f * a f)))%R) with (fun d => (r d * r d)%R). lra.
Qed.
Definition normal_matrix (D : nat) (c1 c2 : R) (X : mat) : mat := fun f g => (c1 * vsum D (fun d => X d f * X d g) + (if f =? g then c2 else 0))%R.
Lemma normal_symm D F c1 c2 X : symm F (normal_matrix D c1 c2 X).
Proof.
  intros f g _ _. unfold normal_matrix. rewrite (Nat.eqb_sym g f). f_equal. f_equal. apply vsum_ext. intros; ring.
Qed.
Lemma normal_posdef D F c1 c2 X : (0 <= c1)%R -> (0 < c2)%R -> posdef F (normal_matrix D c1 c2 X).
Proof.
  intros H1 H2 x [k [Hk Hx]]. unfold normal_matrix.
  rewrite (quad_sum F (fun f g => c1 * vsum D (fun d => X d f * X d g))%R (fun f g => if f =? g then c2 else 0)%R).
  rewrite (quad_scale F (fun f g => vsum D (fun d => X d f * X d g))%R), (quad_gram F D (fun f d => X d f)), (quad_diag F (fun _ => c2)).
  assert (0 <= vsum D (fun p => vsum F (fun i => x i * X p i) * vsum F (fun i => x i * X p i)))%R by (apply vsum_nonneg; intros; apply Rle_0_sqr).
  pose proof (Rmult_le_pos _ _ H1 H).
  assert (0 < vsum F (fun i => c2 * (x i * x i)))%R; [|lra].
  apply (vsum_pos_one F _ k Hk); [intros; apply Rmult_le_pos; [lra|apply Rle_0_sqr]|].
  apply Rmult_lt_0_compat; [exact H2|]. assert (0 <= x k * x k)%R by apply Rle_0_sqr. assert (x k * x k <> 0)%R by (apply Rmult_integral_contrapositive; split; exact Hx). lra.
Qed.
Lemma normal_equations D F c1 c2 X m w a N : symm F N -> is_inverse F (normal_matrix D c1 c2 X) N ->
  (forall f, f < F -> a f = vsum F (fun g => (c2 * w g + c1 * vsum D (fun d => X d g * m d)) * N g f)%R) ->
  forall f, f < F -> (c1 * vsum D (fun d => X d f * (m d - vsum F (fun g => X d g * a g))) = c2 * (a f - w f))%R.
Proof.
  intros HS HI HA f Hf. set (b := fun g => (c2 * w g + c1 * vsum D (fun d => X d g * m d))%R).
  assert (E : vsum F (fun g => normal_matrix D c1 c2 X f g * a g)%R = b f).
  { rewrite (vsum_ext F _ (fun g => normal_matrix D c1 c2 X f g * vsum F (fun h => N g h * b h))%R).
    - apply is_inverse_vec; assumption.
    - intros g Hg. rewrite (HA g Hg). f_equal. apply vsum_ext. intros h Hh. rewrite (HS g h Hg Hh). unfold b. ring. }
  unfold normal_matrix in E. rewrite (vsum_ext F _ (fun g => c1 * (vsum D (fun d => X d f * X d g) * a g) + eye f g * (c2 * a g))%R) in E.
  2:{ intros g _. unfold eye. destruct (f =? g); ring. }
  rewrite vsum_plus, vsum_scale, (vsum_eye F f (fun g => c2 * a g)%R Hf) in E. unfold b in E.
  rewrite (vsum_ext D _ (fun d => X d f * m d - vsum F (fun g => X d f * X d g * a g))%R).
  2:{ intros d _. rewrite Rmult_minus_distr_l. f_equal. rewrite <- vsum_scale. apply vsum_ext. intros; ring. }
  rewrite vsum_minus. rewrite (vsum_swap D F (fun d g => X d f * X d g * a g)%R).
  rewrite (vsum_ext F (fun g => vsum D (fun d => X d f * X d g * a g))%R (fun g => vsum D (fun d => X d f * X d g) * a g)%R) by (intros; apply vsum_scale_r). lra.
Qed.
