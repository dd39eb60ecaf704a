(** * Lemmas about the side topic model of old/sidetopic.py. *)
From Coq Require Import List Reals ZArith Arith Bool Lra Lia.
From Verif Require Import Base RealModel RealProofs VbModel VbProofs LinkModel LinkProps CtmModel CtmProofs CtmProps StmProofs StmProps MtmModel MtmProofs
  MtmProps BouchModel BouchProofs BouchProps VecyProofs UyvModel UyvProofs OldModel.
Import ListNotations.
Open Scope nat_scope.

(** ** What is optimised *)
Definition trace (n : nat) (M : mat) : R := vsum n (fun i => M i i).
(** The trace of a product. *)
Definition trace2 (n : nat) (M N : mat) : R := vsum n (fun i => vsum n (fun j => M i j * N j i))%R.
(** How far the map [A] from features to topics is from the product of the two bases. *)
Definition misfit (K F P : nat) (A U V : mat) : R :=
  vsum F (fun f => vsum K (fun k => (A f k - vsum P (fun p => U f p * V p k)) * (A f k - vsum P (fun p => U f p * V p k))))%R.
Definition squares (m n : nat) (M : mat) : R := vsum m (fun i => vsum n (fun j => M i j * M i j))%R.
(** A function of matrices that, less the trace of the product with a positive definite
    matrix, is largest at that matrix' inverse; the logarithm of the determinant is one. *)
Definition log_det (n : nat) (ldet : mat -> R) : Prop := forall M N S, symm n M -> posdef n M -> is_inverse n M N -> is_inverse n N M ->
  symm n S -> posdef n S -> (ldet S - trace2 n M S <= ldet N - trace2 n M N)%R.

Section bound.
  Variables (K F T P D : nat) (sigma tau : R) (W X : mat) (ldetP ldetF : mat -> R).
  (** The bound on the words of the documents, given the map from features to topics. *)
  Definition documents (vocab A m u : mat) (s : vec) (xi : mat) : R := vsum D (fun d =>
    objective K T vocab (fun k => vsum F (fun f => X d f * A f k))%R (diag (fun _ => 1 / (sigma * sigma))%R) (W d) (s d) (xi d) (m d) (u d)).
  (** The variational bound, up to a constant: the columns of A and V have covariances
      tau^2 varA and tau^2 varV. *)
  Definition bound (o : old) (m u : mat) (s : vec) (xi : mat) : R :=
    (documents (o_vocab o) (o_A o) m u s xi
     - misfit K F P (o_A o) (o_U o) (o_V o) / (2 * (tau * tau)) - squares P K (o_V o) / 2
     - INR K / 2 * (vsum F (fun f => quad P (o_varV o) (o_U o f) (o_U o f)) + tau * tau * trace P (o_varV o)) + INR K / 2 * ldetP (o_varV o)
     - INR K / 2 * (tau * tau / (sigma * sigma) * trace2 F (gram D X) (o_varA o) + trace F (o_varA o)) + INR K / 2 * ldetF (o_varA o))%R.
End bound.
(** The variational distribution that the arrays of a query stand for. *)
Definition holds (K D : nat) (q : old_query) (m u : mat) (s : vec) (xi : mat) : Prop := forall d, d < D -> s d = o_s q d /\ forall k, k < K ->
  m d k = o_lmda q d k /\ (0 < o_nu q d k)%R /\ u d k = (o_nu q d k * o_nu q d k)%R /\ (0 < xi d k)%R /\ o_lxi q d k = jaakkola (xi d k).
Definition invertible (inv : nat -> mat -> option mat) (n : nat) : Prop := forall M, symm n M -> posdef n M -> exists N, inv n M = Some N.

(** ** Traces *)
Lemma trace2_shift n m c M S : symm n S ->
  trace2 n (fun i j => scalar c i j + gram m M i j)%R S = (vsum m (fun f => quad n S (M f) (M f)) + c * trace n S)%R.
Proof.
  intros HS. unfold trace2, trace. rewrite (vsum_ext n _ (fun i => vsum n (fun j => eye i j * (c * S j i)) + vsum n (fun j => vsum m (fun f => M f i * S i j * M f j)))%R).
  - rewrite vsum_plus, Rplus_comm. f_equal.
    + rewrite (vsum_ext n _ (fun i => vsum m (fun f => vsum n (fun j => M f i * S i j * M f j)))%R) by (intros i _; apply (vsum_swap n m (fun j f => M f i * S i j * M f j)%R)).
      rewrite (vsum_swap n m (fun i f => vsum n (fun j => M f i * S i j * M f j)%R)). reflexivity.
    + rewrite <- vsum_scale. apply vsum_ext. intros i Hi. apply (vsum_eye n i (fun j => c * S j i)%R Hi).
  - intros i Hi. rewrite <- vsum_plus. apply vsum_ext. intros j Hj. unfold scalar, gram, eye. rewrite (HS j i Hj Hi).
    rewrite Rmult_plus_distr_r, <- vsum_scale_r. f_equal; [destruct (i =? j); ring|]. apply vsum_ext. intros; ring.
Qed.
Lemma trace2_ridge n c M S : trace2 n (fun i j => c * M i j + eye i j)%R S = (c * trace2 n M S + trace n S)%R.
Proof.
  unfold trace2, trace. rewrite <- vsum_scale, <- vsum_plus. apply vsum_ext. intros i Hi.
  rewrite (vsum_ext n _ (fun j => c * (M i j * S j i) + eye i j * S j i)%R) by (intros; ring).
  rewrite vsum_plus, vsum_scale. f_equal. apply (vsum_eye n i (fun j => S j i) Hi).
Qed.

(** ** Words that do not occur do not count *)
Lemma objective_words K T v v' mu P w s xi m u : (forall t, t < T -> w t = 0%R \/ forall k, k < K -> v k t = v' k t) ->
  objective K T v mu P w s xi m u = objective K T v' mu P w s xi m u.
Proof.
  intros H. unfold objective. do 4 f_equal. apply vsum_ext. intros t Ht. destruct (H t Ht) as [->|E]; [ring|].
  do 2 f_equal. apply vsum_ext. intros k Hk. rewrite (E k Hk). reflexivity.
Qed.
Lemma objective_same K T v mu mu' P w s xi xi' m m' u u' : (forall k, k < K -> mu k = mu' k /\ xi k = xi' k /\ m k = m' k /\ u k = u' k) ->
  objective K T v mu P w s xi m u = objective K T v mu' P w s xi' m' u'.
Proof.
  intros H. unfold objective, bouchard. f_equal; [f_equal; [f_equal; [f_equal|]|]|].
  - apply vsum_ext. intros t _. do 2 f_equal. apply vsum_ext. intros k Hk. destruct (H k Hk) as (_ & _ & -> & _). reflexivity.
  - f_equal. f_equal; [f_equal|]; apply vsum_ext; intros k Hk; destruct (H k Hk) as (_ & E1 & E2 & E3); rewrite ?E1, ?E2, ?E3; reflexivity.
  - f_equal. apply quad_ext; [reflexivity| |]; intros k Hk; destruct (H k Hk) as (-> & _ & -> & _); reflexivity.
  - f_equal. apply vsum_ext. intros k Hk. destruct (H k Hk) as (_ & _ & _ & ->). reflexivity.
  - f_equal. apply vsum_ext. intros k Hk. destruct (H k Hk) as (_ & _ & _ & ->). reflexivity.
Qed.

Section steps.
  Variables K F T P D : nat.
  Variables tiny sigma tau : R.
  Variable inv : nat -> mat -> option mat.
  Variables W X : mat.
  Hypothesis HK : 0 < K.
  Hypothesis HD : 0 < D.
  Hypothesis Ht : (0 < tiny)%R.
  Hypothesis Hsg : (0 < sigma)%R.
  Hypothesis Hta : (0 < tau)%R.
  Hypothesis Hinv : correct_inv inv.
  Hypothesis HtP : invertible inv P.
  Hypothesis HtF : invertible inv F.
  Hypothesis HW : forall d t, d < D -> t < T -> (0 <= W d t)%R.
  Hypothesis HN : forall d, d < D -> (0 < vsum T (W d))%R.
  Notation room := (fun v : mat => forall k, k < K -> (forall t, t < T -> (0 <= v k t)%R) /\ (vsum T (v k) <= 1)%R /\ forall t, occurs T D W t -> (tiny <= v k t)%R).

  Lemma tsq : (0 < tau * tau)%R.
  Proof. clear - Hta. apply Rmult_lt_0_compat; exact Hta. Qed.
  Lemma ssq : (0 < 1 / (sigma * sigma))%R.
  Proof. clear - Hsg. apply Rdiv_lt_0_compat; [lra|apply Rmult_lt_0_compat; exact Hsg]. Qed.
  Lemma ts : (0 < tau * tau / (sigma * sigma))%R.
  Proof. clear - Hsg Hta. apply Rdiv_lt_0_compat; apply Rmult_lt_0_compat; assumption. Qed.

  Lemma varV_ok U : exists N, old_varV F P tau inv U = Ok N /\ symm P N /\ posdef P N /\
    is_inverse P (fun p q => scalar (tau * tau) p q + gram F U p q)%R N /\ is_inverse P N (fun p q => scalar (tau * tau) p q + gram F U p q)%R.
  Proof.
    clear HW HN HD HK Ht Hsg. pose proof tsq as H2. set (M := fun p q => (scalar (tau * tau) p q + gram F U p q)%R).
    assert (SM : symm P M). { intros i j Hi Hj. unfold M. rewrite (scalar_symm P _ i j Hi Hj), (gram_symm F P U i j Hi Hj). reflexivity. }
    assert (PM : posdef P M).
    { intros x Hx. pose proof (shifted_posdef P (tau * tau) 1 F U H2 ltac:(lra) x Hx) as Q.
      rewrite (quad_ext P M (fun i j => scalar (tau * tau) i j + 1 * gram F U i j)%R x x x x); [exact Q|intros; unfold M; ring|reflexivity|reflexivity]. }
    destruct (HtP M SM PM) as [N E]. destruct (Hinv P M N E) as [HR HL]. exists N. unfold old_varV, la_inv. fold M. rewrite E.
    split; [reflexivity|]. split; [exact (inverse_symm P M N SM HR HL)|]. split; [exact (inverse_posdef P M N PM HR HL)|]. split; assumption.
  Qed.
  Lemma varA_ok : exists N, old_varA F D sigma tau inv X = Ok N /\ symm F N /\ posdef F N /\
    symm F (fun f g => tau * tau / (sigma * sigma) * gram D X f g + eye f g)%R /\ posdef F (fun f g => tau * tau / (sigma * sigma) * gram D X f g + eye f g)%R /\
    is_inverse F (fun f g => tau * tau / (sigma * sigma) * gram D X f g + eye f g)%R N /\ is_inverse F N (fun f g => tau * tau / (sigma * sigma) * gram D X f g + eye f g)%R.
  Proof.
    clear HW HN HD HK Ht. pose proof ts as H2. set (M := fun f g => (tau * tau / (sigma * sigma) * gram D X f g + eye f g)%R).
    assert (EM : forall f g, M f g = normal_matrix D (tau * tau / (sigma * sigma)) 1 X f g) by reflexivity.
    assert (SM : symm F M) by (intros i j Hi Hj; rewrite !EM; apply (normal_symm D F); assumption).
    assert (PM : posdef F M) by (apply (normal_posdef D F (tau * tau / (sigma * sigma)) 1 X); lra).
    destruct (HtF M SM PM) as [N E]. destruct (Hinv F M N E) as [HR HL]. exists N. unfold old_varA, la_inv. fold M. rewrite E.
    split; [reflexivity|]. split; [exact (inverse_symm F M N SM HR HL)|]. split; [exact (inverse_posdef F M N PM HR HL)|]. repeat split; assumption.
  Qed.

  (** *** The latent map *)
  Lemma V_best U A N : symm P N -> is_inverse P (fun p q => scalar (tau * tau) p q + gram F U p q)%R N -> forall b,
    (misfit K F P A U (old_V F P N U A) + tau * tau * squares P K (old_V F P N U A) <= misfit K F P A U b + tau * tau * squares P K b)%R.
  Proof.
    clear HW HN HD HK Ht Hsg. intros SN HR b. pose proof tsq as H2.
    assert (E : forall Z, (misfit K F P A U Z + tau * tau * squares P K Z)%R = vsum K (fun k => penalised F P 1 (tau * tau) U (fun f => A f k) (fun _ => 0%R) (fun p => Z p k))).
    { intros Z. unfold misfit, squares. rewrite (vsum_swap F K), (vsum_swap P K (fun p k => Z p k * Z p k)%R), <- vsum_scale, <- vsum_plus.
      apply vsum_ext. intros k _. unfold penalised. rewrite Rmult_1_l. do 2 f_equal. apply vsum_ext. intros; ring. }
    rewrite !E. apply vsum_le. intros k Hk. apply stationary_optimal; [lra|lra|].
    apply (normal_equations F P 1 (tau * tau) U (fun f => A f k) (fun _ => 0%R) _ N SN).
    - intros i j Hi Hj. rewrite <- (HR i j Hi Hj). apply vsum_ext. intros. f_equal. unfold normal_matrix, scalar, gram. ring.
    - intros p Hp. unfold old_V. apply vsum_ext. intros q Hq. rewrite (SN p q Hp Hq). ring.
  Qed.
  (** *** The map from the features: the best for [sigma^2/tau^2] times the means *)
  Lemma A_best lmda U V N : symm F N -> is_inverse F (fun f g => tau * tau / (sigma * sigma) * gram D X f g + eye f g)%R N -> forall b k,
    (penalised D F (tau * tau / (sigma * sigma)) 1 X (fun d => sigma * sigma / (tau * tau) * lmda d k) (fun f => vsum P (fun p => U f p * V p k)) (fun f => old_A F P D N X lmda U V f k)
     <= penalised D F (tau * tau / (sigma * sigma)) 1 X (fun d => sigma * sigma / (tau * tau) * lmda d k) (fun f => vsum P (fun p => U f p * V p k)) b)%R.
  Proof.
    clear HW HN HD HK Ht. intros SN HR b k. pose proof ts as H2. apply stationary_optimal; [lra|lra|].
    apply (normal_equations D F (tau * tau / (sigma * sigma)) 1 X (fun d => sigma * sigma / (tau * tau) * lmda d k)%R _ _ N SN).
    - intros i j Hi Hj. rewrite <- (HR i j Hi Hj). reflexivity.
    - intros f Hf. unfold old_A. apply vsum_ext. intros g Hg. rewrite (SN f g Hf Hg), Rmult_comm. f_equal. rewrite Rmult_1_l. f_equal.
      rewrite <- vsum_scale. apply vsum_ext. intros d _. field. lra.
  Qed.
  (** *** The projection *)
  Lemma U_ok A V S : symm P S -> posdef P S -> exists U, old_U K P tau inv A V S = Ok U /\ forall b,
    (misfit K F P A U V + INR K * (tau * tau) * vsum F (fun f => quad P S (U f) (U f)) <= misfit K F P A b V + INR K * (tau * tau) * vsum F (fun f => quad P S (b f) (b f)))%R.
  Proof.
    clear HW HN HD Ht Hsg. intros SS PS. pose proof tsq as H2. set (c := (INR K * (tau * tau))%R).
    assert (Hc : (0 < c)%R) by (apply Rmult_lt_0_compat; [apply lt_0_INR; exact HK|exact H2]).
    set (M := fun p q => (c * S p q + vsum K (fun k => V p k * V q k))%R).
    assert (SM : symm P M). { intros i j Hi Hj. unfold M. rewrite (SS i j Hi Hj). f_equal. apply vsum_ext. intros; ring. }
    assert (PM : posdef P M).
    { intros x Hx. pose proof (posdef_add P (fun i j => c * S i j)%R (gram K (fun k p => V p k)) 1 (scaled_posdef P c S Hc PS) (gram_psd K P (fun k p => V p k)) ltac:(lra) x Hx) as Q.
      rewrite (quad_ext P M (fun i j => c * S i j + 1 * gram K (fun k p => V p k) i j)%R x x x x); [exact Q|intros; unfold M, gram; ring|reflexivity|reflexivity]. }
    destruct (HtP M SM PM) as [N E]. destruct (Hinv P M N E) as [HR HL]. unfold old_U, la_inv. fold c. fold M. rewrite E. cbn [bind].
    eexists. split; [reflexivity|]. intros b.
    assert (EE : forall Z, (misfit K F P A Z V + c * vsum F (fun f => quad P S (Z f) (Z f)))%R = vsum F (fun f => ridge K P (fun k p => V p k) (fun p q => c * S p q)%R (A f) (Z f))).
    { intros Z. unfold misfit. rewrite <- vsum_scale, <- vsum_plus. apply vsum_ext. intros f _. unfold ridge. rewrite quad_scale. f_equal.
      apply vsum_ext. intros k _. rewrite (vsum_ext P (fun p => Z f p * V p k)%R (fun g => V g k * Z f g)%R) by (intros; ring). reflexivity. }
    rewrite !EE. apply vsum_le. intros f _.
    assert (EM : forall i j, M i j = (vsum K (fun k => V i k * V j k) + c * S i j)%R) by (intros; unfold M; ring).
    apply (base_ok P K V S c (A f) N SS (posdef_psd P S PS) ltac:(lra)).
    - intros i j Hi Hj. rewrite <- (HR i j Hi Hj). apply vsum_ext. intros. rewrite EM. reflexivity.
    - intros i j Hi Hj. rewrite <- (HL i j Hi Hj). apply vsum_ext. intros. rewrite EM. reflexivity.
  Qed.

  (** *** One document *)
  Definition floored (v : mat) : mat := fun k t => if rltb (v k t) tiny then tiny else v k t.
  Lemma floored_pos v k t : (0 < floored v k t)%R.
  Proof. clear - Ht. unfold floored. destruct (rltb (v k t) tiny) eqn:E; [exact Ht|]. apply rltb_false in E. lra. Qed.
  Lemma floored_exp v k t : exp (old_ln tiny v k t) = floored v k t.
  Proof. clear - Ht. unfold old_ln, floored. destruct (rltb (v k t) tiny) eqn:E; apply exp_ln; [exact Ht|]. apply rltb_false in E. lra. Qed.
  Lemma floored_covers v : covers K T (floored v).
  Proof. clear - Ht HK. split; [intros; left; apply floored_pos|]. intros t _. exists 0. split; [exact HK|apply floored_pos]. Qed.
  Lemma floored_room v : room v -> forall k t, k < K -> occurs T D W t -> floored v k t = v k t.
  Proof. clear. intros H k t Hk Ho. unfold floored. replace (rltb (v k t) tiny) with false; [reflexivity|]. symmetry. apply rltb_false. apply (H k Hk). exact Ho. Qed.
  Lemma Z_is lmda v d k t : old_Z K lmda (old_ln tiny v) d k t = (exp (lmda d k) * floored v k t / mass K (floored v) (lmda d) t)%R.
  Proof.
    clear - Ht. unfold old_Z, mass. rewrite exp_plus, floored_exp. f_equal. apply vsum_ext. intros j _. rewrite exp_plus, floored_exp. reflexivity.
  Qed.

  Notation goal v A := (fun d => objective K T v (fun k => vsum F (fun f => X d f * A f k))%R (diag (fun _ => 1 / (sigma * sigma))%R) (W d)).
  Lemma document_step v A q m u s xi d : holds K D q m u s xi -> d < D ->
    let n := fun d => vsum T (W d) in
    let m' := old_lmda K F T sigma W X A (old_ln tiny v) n q in
    let nu := old_nu sigma n (o_lxi q) in
    let xi' := fun k => derive_xi (m' d k) (nu d k) (s d) in
    (forall k, k < K -> (0 < nu d k)%R /\ (0 < xi' k)%R /\ lxi_of m' nu (o_s q) d k = jaakkola (xi' k)) /\
    bouch_solves K T (floored v) (fun k => vsum F (fun f => X d f * A f k))%R (diag (fun _ => 1 / (sigma * sigma))%R) (W d) (s d) (xi d) (o_lmda q d) (m' d) /\
    (goal (floored v) A d (s d) (xi d) (m d) (u d) <= goal (floored v) A d (s d) (xi d) (m' d) (u d))%R /\
    (forall z, (forall k, k < K -> (0 < z k)%R) -> (goal (floored v) A d (s d) (xi d) (m' d) z <= goal (floored v) A d (s d) (xi d) (m' d) (fun k => nu d k * nu d k))%R) /\
    (forall x, (forall k, k < K -> (0 < x k)%R) -> (goal (floored v) A d (s d) x (m' d) (fun k => nu d k * nu d k) <= goal (floored v) A d (s d) xi' (m' d) (fun k => nu d k * nu d k))%R).
  Proof.
    clear HD. intros Hq Hd n m' nu xi'. pose proof ssq as Ho. pose proof (HN d Hd) as Hn. destruct (Hq d Hd) as [Es Hr].
    assert (Hx : forall k, k < K -> (0 < xi d k)%R) by (intros k Hk; apply (Hr k Hk)).
    assert (Hnl : forall k, k < K -> (0 < n d * o_lxi q d k)%R).
    { intros k Hk. destruct (Hr k Hk) as (_ & _ & _ & X0 & ->). apply Rmult_lt_0_compat; [exact Hn|apply jaakkola_pos; exact X0]. }
    assert (Hnu : forall k, k < K -> (0 < nu d k)%R /\ (nu d k * nu d k = / (2 * n d * jaakkola (xi d k) + 1 / (sigma * sigma)))%R).
    { intros k Hk. pose proof (Hnl k Hk) as H1. unfold nu, old_nu. destruct (Hr k Hk) as (_ & _ & _ & X0 & EL). rewrite EL in *.
      assert (Hz : (0 < 2 * n d * jaakkola (xi d k) + 1 / (sigma * sigma))%R) by lra.
      pose proof (sqrt_lt_R0 _ Hz) as Hs. split; [apply Rdiv_lt_0_compat; lra|].
      rewrite <- (sqrt_sqrt _ (Rlt_le _ _ Hz)) at 3. field. lra. }
    assert (Hx' : forall k, k < K -> (0 < xi' k)%R) by (intros k Hk; apply xi_pos, Hnu; exact Hk).
    assert (HB : bouch_solves K T (floored v) (fun k => vsum F (fun f => X d f * A f k))%R (diag (fun _ => 1 / (sigma * sigma))%R) (W d) (s d) (xi d) (o_lmda q d) (m' d)).
    { intros k Hk. rewrite !diag_dot by exact Hk. fold (n d).
      assert (Sh : vsum T (fun t => W d t * old_Z K (o_lmda q) (old_ln tiny v) d k t)%R = expected K T (floored v) (W d) (o_lmda q d) k).
      { apply vsum_ext. intros t _. rewrite Z_is. reflexivity. }
      pose proof (Hnl k Hk) as H1. unfold m', old_lmda. rewrite Sh. destruct (Hr k Hk) as (_ & _ & _ & X0 & EL). rewrite EL in *. rewrite <- Es.
      set (a := vsum F (fun f => X d f * A f k)%R). set (c := (1 / (sigma * sigma))%R) in *. fold (n d) in Hn. field. split; lra. }
    split; [|split; [exact HB|split; [|split]]].
    - intros k Hk. split; [apply Hnu; exact Hk|]. split; [apply Hx'; exact Hk|]. unfold lxi_of. rewrite <- Es. fold (xi' k). apply neg_jakkola_is.
      pose proof (Hx' k Hk). lra.
    - rewrite (objective_same K T (floored v) _ (fun k => vsum F (fun f => X d f * A f k))%R _ (W d) (s d) (xi d) (xi d) (m d) (o_lmda q d) (u d) (u d)).
      2:{ intros k Hk. destruct (Hr k Hk) as (-> & _). repeat split. }
      apply means_grow; try assumption; try apply floored_covers; try (intros t Hti; apply HW; assumption); [apply diag_symm|apply diag_psd; intros; lra].
    - intros z Hz. apply varcs_grow; try assumption; try apply floored_covers; try (intros t Hti; apply HW; assumption).
      + intros k Hk. rewrite diag_at. exact Ho.
      + intros k Hk. rewrite diag_at. apply Hnu. exact Hk.
    - intros x Hxx. apply tangents_best; try assumption; try apply floored_covers; try (intros t Hti; apply HW; assumption).
      + intros k Hk. destruct (Hnu k Hk) as [H1 _]. apply Rmult_le_pos; lra.
      + intros k Hk. unfold xi', derive_xi. rewrite sqrt_sqrt; [ring|].
        replace (m' d k * m' d k - 2 * m' d k * s d + s d * s d + nu d k * nu d k)%R with ((m' d k - s d) * (m' d k - s d) + nu d k * nu d k)%R by ring.
        pose proof (Rle_0_sqr (m' d k - s d)) as Q1. pose proof (Rle_0_sqr (nu d k)) as Q2. unfold Rsqr in Q1, Q2. lra.
  Qed.

  (** *** The words *)
  Lemma some_word : exists t, occurs T D W t.
  Proof.
    clear - HD HN HW. apply Classical_Prop.NNPP. intros H. pose proof (HN 0 HD) as Hp. rewrite (vsum_ext T (W 0) (fun _ => 0%R)), vsum_zero in Hp; [lra|].
    intros t Hti. destruct (HW 0 t HD Hti) as [Hw|<-]; [|reflexivity]. exfalso. apply H. exists t. split; [exact Hti|]. exists 0. split; assumption.
  Qed.
  Lemma room_weights v : room v -> weights K T D W v.
  Proof. clear - Ht. intros H k Hk. destruct (H k Hk) as (H1 & _ & H2). split; [exact H1|]. intros t Ho. pose proof (H2 t Ho). lra. Qed.
  Lemma vocab_same lmda v : room v -> forall k t, k < K -> t < T ->
    old_vocab K T D W lmda (old_ln tiny v) k t = new_vocab K T D W (fun d k => exp (lmda d k)) v k t.
  Proof.
    clear HD HN. intros Hv k t Hk Hti.
    assert (E : forall t, t < T -> vsum D (fun d => W d t * old_Z K lmda (old_ln tiny v) d k t)%R = (v k t * vsum D (fun d => quotient K W (fun d k => exp (lmda d k)) v d t * exp (lmda d k)))%R).
    { intros t' Ht'. rewrite (tally_is K D W lmda v k t'). apply vsum_ext. intros d Hd. destruct (HW d t' Hd Ht') as [Hw|<-]; [|ring].
      assert (Ho : occurs T D W t') by (split; [exact Ht'|exists d; split; assumption]). rewrite Z_is. do 2 f_equal.
      - rewrite (floored_room v Hv k t' Hk Ho). reflexivity.
      - unfold mass. apply vsum_ext. intros j Hj. rewrite (floored_room v Hv j t' Hj Ho). reflexivity. }
    unfold old_vocab, new_vocab, norm_rows. rewrite (E t Hti). f_equal. apply vsum_ext. exact E.
  Qed.
  Lemma documents_vocab v A m u s xi : room v ->
    (documents K F T D sigma W X v A m u s xi <= documents K F T D sigma W X (old_vocab K T D W m (old_ln tiny v)) A m u s xi)%R.
  Proof.
    intros Hv. pose proof (room_weights v Hv) as Hw. pose proof some_word as HO.
    pose proof (vocab_grows K T D W m HK HW HO v Hw ltac:(intros k Hk; apply (Hv k Hk))) as G. set (v' := new_vocab K T D W (fun d k => exp (m d k)) v) in *.
    pose proof (vocab_weights K T D W m HK HW HO v Hw) as Hw'. fold v' in Hw'.
    assert (E : forall d, d < D -> (objective K T (old_vocab K T D W m (old_ln tiny v)) (fun k => vsum F (fun f => X d f * A f k))%R (diag (fun _ => 1 / (sigma * sigma))%R) (W d) (s d) (xi d) (m d) (u d)
       - objective K T v (fun k => vsum F (fun f => X d f * A f k))%R (diag (fun _ => 1 / (sigma * sigma))%R) (W d) (s d) (xi d) (m d) (u d)
       = log_like K T v' (W d) (m d) - log_like K T v (W d) (m d))%R).
    { intros d Hd. rewrite (objective_words K T _ v'); [|intros t Hti; right; intros k Hk; apply vocab_same; assumption].
      unfold objective, log_like.
      assert (L : forall z, weights K T D W z -> vsum T (fun t => W d t * ln (vsum K (fun k => softmax K (m d) k * z k t)))%R
        = (vsum T (fun t => W d t * ln (vsum K (fun k => exp (m d k) * z k t))) - vsum T (fun t => W d t * ln (vsum K (fun k => exp (m d k)))))%R).
      { intros z Hz. rewrite <- vsum_minus. apply vsum_ext. intros t Hti. destruct (HW d t Hd Hti) as [Hp|<-]; [|ring].
        rewrite (like_word K T D W m HK z d t Hz) by (split; [exact Hti|exists d; split; assumption]). unfold mass. ring. }
      rewrite (L v' Hw'), (L v Hw). lra. }
    unfold documents. apply Rminus_le. rewrite <- vsum_minus.
    rewrite (vsum_ext D _ (fun d => log_like K T v (W d) (m d) - log_like K T v' (W d) (m d))%R) by (intros d Hd; pose proof (E d Hd); lra).
    rewrite vsum_minus. lra.
  Qed.

  (** *** The whole iteration *)
  Definition residual (A m : mat) : R :=
    vsum K (fun k => vsum D (fun d => (m d k - vsum F (fun f => X d f * A f k)) * (m d k - vsum F (fun f => X d f * A f k))))%R.
  Lemma documents_A v A B m u s xi :
    (documents K F T D sigma W X v A m u s xi + residual A m * (1 / (sigma * sigma)) / 2 = documents K F T D sigma W X v B m u s xi + residual B m * (1 / (sigma * sigma)) / 2)%R.
  Proof.
    clear. set (c := (1 / (sigma * sigma))%R).
    assert (E : forall A, (documents K F T D sigma W X v A m u s xi + residual A m * c / 2)%R = vsum D (fun d =>
      vsum T (fun t => W d t * ln (vsum K (fun k => exp (m d k) * v k t))) - vsum T (W d) * (bouchard K (s d) (xi d) (m d) + vsum K (fun k => jaakkola (xi d k) * u d k))
      - vsum K (fun k => diag (fun _ => c) k k * u d k) / 2 + vsum K (fun k => ln (u d k)) / 2)%R).
    { intros Z. unfold residual. rewrite (vsum_swap K D). unfold Rdiv at 1. rewrite Rmult_assoc, <- vsum_scale_r. unfold documents. rewrite <- vsum_plus.
      apply vsum_ext. intros d _. unfold objective. fold c. unfold diag at 1. rewrite quad_diag, vsum_scale. lra. }
    rewrite !E. reflexivity.
  Qed.
  Lemma documents_ext v v' A m m' u u' s xi xi' : (forall t, occurs T D W t -> forall k, k < K -> v k t = v' k t) ->
    (forall d k, d < D -> k < K -> m d k = m' d k /\ u d k = u' d k /\ xi d k = xi' d k) ->
    documents K F T D sigma W X v A m u s xi = documents K F T D sigma W X v' A m' u' s xi'.
  Proof.
    clear - HW. intros Hv H. apply vsum_ext. intros d Hd. rewrite (objective_words K T v v').
    - apply objective_same. intros k Hk. destruct (H d k Hd Hk) as (-> & -> & ->). repeat split.
    - intros t Hti. destruct (HW d t Hd Hti) as [Hp|E]; [right|left; symmetry; exact E]. apply Hv. split; [exact Hti|exists d; split; assumption].
  Qed.
  Definition sound (o : old) : Prop := symm P (o_varV o) /\ posdef P (o_varV o) /\ symm F (o_varA o) /\ posdef F (o_varA o).

  Lemma iter_grows ldetP ldetF o q m u s xi : log_det P ldetP -> log_det F ldetF -> sound o -> room (o_vocab o) -> holds K D q m u s xi ->
    exists o' q' m' u' xi', old_iter K F T P D tiny sigma tau inv W X o q = Ok (o', q') /\ holds K D q' m' u' s xi' /\ sound o' /\
      distributions K T (o_vocab o') /\ weights K T D W (o_vocab o') /\
      (sigma = tau -> bound K F T P D sigma tau W X ldetP ldetF o m u s xi <= bound K F T P D sigma tau W X ldetP ldetF o' m' u' s xi')%R.
  Proof.
    intros LP LF (SV & PV & SA & PA) Hr Hq. pose proof tsq as H2. pose proof ts as H3. pose proof (room_weights _ Hr) as Hw. pose proof some_word as HO.
    destruct (varV_ok (o_U o)) as (N & EV & SN & PN & HR & HL). destruct varA_ok as (B & EA & SB & PB & SM & PM & HRA & HLA).
    set (V := old_V F P N (o_U o) (o_A o)). set (A := old_A F P D B X (o_lmda q) (o_U o) V).
    destruct (U_ok A V N SN PN) as (U & EU & BU).
    set (n := fun d => vsum T (W d)). set (m' := old_lmda K F T sigma W X A (old_ln tiny (o_vocab o)) n q). set (nu := old_nu sigma n (o_lxi q)).
    set (xi' := fun d k => derive_xi (m' d k) (nu d k) (s d)). set (u' := fun d k => (nu d k * nu d k)%R).
    set (vocab := old_vocab K T D W m' (old_ln tiny (o_vocab o))).
    exists {| o_A := A; o_varA := B; o_V := V; o_varV := N; o_U := U; o_vocab := vocab |},
      {| o_lmda := m'; o_nu := nu; o_lxi := lxi_of m' nu (o_s q); o_s := o_s q |}, m', u', xi'.
    assert (SP : forall d, d < D -> _) by (intros d Hd; exact (document_step (o_vocab o) A q m u s xi d Hq Hd)). cbv zeta in SP. fold n in SP. fold m' in SP. fold nu in SP.
    split; [unfold old_iter; rewrite EV; cbn [bind]; fold V; rewrite EA; cbn [bind]; fold A; rewrite EU; reflexivity|].
    split.
    { intros d Hd. cbn [o_s o_lmda o_nu o_lxi]. split; [apply (Hq d Hd)|]. intros k Hk. destruct (SP d Hd) as [SP1 _]. destruct (SP1 k Hk) as (P1 & P2 & P3).
      split; [reflexivity|]. split; [exact P1|]. split; [reflexivity|]. split; [exact P2|exact P3]. }
    split; [repeat split; assumption|].
    assert (Evoc : forall k t, k < K -> t < T -> vocab k t = new_vocab K T D W (fun d k => exp (m' d k)) (o_vocab o) k t) by (intros; apply vocab_same; assumption).
    split.
    { intros k Hk. destruct (vocab_distributions K T D W m' HK HW HO (o_vocab o) Hw k Hk) as [V1 V2]. cbn [o_vocab]. split.
      - intros t Hti. rewrite (Evoc k t Hk Hti). apply V1. exact Hti.
      - rewrite <- V2. apply vsum_ext. intros t Hti. apply Evoc; assumption. }
    split.
    { intros k Hk. destruct (vocab_weights K T D W m' HK HW HO (o_vocab o) Hw k Hk) as [V1 V2]. cbn [o_vocab]. split.
      - intros t Hti. rewrite (Evoc k t Hk Hti). apply V1. exact Hti.
      - intros t Ho. rewrite (Evoc k t Hk (proj1 Ho)). apply V2. exact Ho. }
    intros Est. unfold bound. cbn [o_A o_varA o_V o_varV o_U o_vocab].
    assert (HKr : (0 < INR K)%R) by (apply lt_0_INR; exact HK).
    (* the covariances *)
    assert (G1 : (ldetP (o_varV o) - (vsum F (fun f => quad P (o_varV o) (o_U o f) (o_U o f)) + tau * tau * trace P (o_varV o))
                  <= ldetP N - (vsum F (fun f => quad P N (o_U o f) (o_U o f)) + tau * tau * trace P N))%R).
    { rewrite <- !trace2_shift by assumption. apply LP; try assumption.
      - intros i j Hi Hj. rewrite (scalar_symm P _ i j Hi Hj), (gram_symm F P _ i j Hi Hj). reflexivity.
      - intros x Hx. pose proof (shifted_posdef P (tau * tau) 1 F (o_U o) H2 ltac:(lra) x Hx) as Q.
        rewrite (quad_ext P _ (fun i j => scalar (tau * tau) i j + 1 * gram F (o_U o) i j)%R x x x x); [exact Q|intros; ring|reflexivity|reflexivity]. }
    assert (G2 : (ldetF (o_varA o) - (tau * tau / (sigma * sigma) * trace2 F (gram D X) (o_varA o) + trace F (o_varA o))
                  <= ldetF B - (tau * tau / (sigma * sigma) * trace2 F (gram D X) B + trace F B))%R).
    { rewrite <- !trace2_ridge. apply LF; assumption. }
    (* the maps *)
    pose proof (V_best (o_U o) (o_A o) N SN HR (o_V o)) as G3. fold V in G3.
    assert (Eone : (tau * tau / (sigma * sigma) = 1)%R) by (rewrite Est; field; lra).
    assert (Eone' : (sigma * sigma / (tau * tau) = 1)%R) by (rewrite Est; field; lra).
    assert (G4 : (residual A (o_lmda q) + misfit K F P A (o_U o) V <= residual (o_A o) (o_lmda q) + misfit K F P (o_A o) (o_U o) V)%R).
    { assert (E : forall Z, (residual Z (o_lmda q) + misfit K F P Z (o_U o) V)%R = vsum K (fun k =>
        penalised D F (tau * tau / (sigma * sigma)) 1 X (fun d => sigma * sigma / (tau * tau) * o_lmda q d k)%R (fun f => vsum P (fun p => o_U o f p * V p k))%R (fun f => Z f k))).
      { intros Z. unfold residual, misfit. rewrite (vsum_swap F K), <- vsum_plus. apply vsum_ext. intros k _. unfold penalised. rewrite Eone, Eone', !Rmult_1_l.
        f_equal. apply vsum_ext. intros d _. rewrite Rmult_1_l. reflexivity. }
      rewrite !E. apply vsum_le. intros k _. apply A_best; assumption. }
    pose proof (BU (o_U o)) as G5.
    (* the documents *)
    assert (G6 : (documents K F T D sigma W X (o_vocab o) A m u s xi <= documents K F T D sigma W X (o_vocab o) A m' u' s xi')%R).
    { assert (Ef : forall t, occurs T D W t -> forall k, k < K -> o_vocab o k t = floored (o_vocab o) k t)
        by (intros t Ho k Hk; symmetry; apply floored_room; assumption).
      rewrite (documents_ext (o_vocab o) (floored (o_vocab o)) A m m u u s xi xi Ef) by (intros; repeat split).
      rewrite (documents_ext (o_vocab o) (floored (o_vocab o)) A m' m' u' u' s xi' xi' Ef) by (intros; repeat split).
      apply vsum_le. intros d Hd. destruct (SP d Hd) as (_ & _ & S1 & S2 & S3). destruct (Hq d Hd) as [_ Hd'].
      refine (Rle_trans _ _ _ S1 _). refine (Rle_trans _ _ _ (S2 (u d) _) (S3 (xi d) _)).
      - intros k Hk. destruct (Hd' k Hk) as (_ & P1 & -> & _). apply Rmult_lt_0_compat; exact P1.
      - intros k Hk. apply (Hd' k Hk). }
    pose proof (documents_vocab (o_vocab o) A m' u' s xi' Hr) as G7. fold vocab in G7.
    pose proof (documents_A (o_vocab o) (o_A o) A m u s xi) as G8.
    assert (Er : forall Z, residual Z m = residual Z (o_lmda q)).
    { intros Z. unfold residual. apply vsum_ext. intros k Hk. apply vsum_ext. intros d Hd. destruct (Hq d Hd) as [_ Hd']. destruct (Hd' k Hk) as (-> & _). reflexivity. }
    rewrite !Er in G8.
    set (i2 := (/ (2 * (tau * tau)))%R) in *. assert (Hi : (0 < i2)%R) by (apply Rinv_0_lt_compat; lra).
    assert (E2 : (1 / (sigma * sigma) / 2 = i2)%R) by (unfold i2; rewrite Est; field; lra).
    assert (Eh : (tau * tau * i2 = / 2)%R) by (unfold i2; field; lra).
    assert (Er2 : forall z, (z * (1 / (sigma * sigma)) / 2 = z * i2)%R) by (intros z; rewrite <- E2; unfold Rdiv; ring). rewrite !Er2 in G8.
    unfold Rdiv. fold i2.
    pose proof (Rmult_le_compat_r i2 _ _ (Rlt_le _ _ Hi) G3) as G3'. pose proof (Rmult_le_compat_r i2 _ _ (Rlt_le _ _ Hi) G4) as G4'.
    pose proof (Rmult_le_compat_r i2 _ _ (Rlt_le _ _ Hi) G5) as G5'.
    assert (Hk2 : (0 <= INR K * / 2)%R) by lra.
    pose proof (Rmult_le_compat_l _ _ _ Hk2 G1) as G1'. pose proof (Rmult_le_compat_l _ _ _ Hk2 G2) as G2'. clear G1 G2 G3 G4 G5.
    replace ((misfit K F P (o_A o) (o_U o) V + tau * tau * squares P K V) * i2)%R with (misfit K F P (o_A o) (o_U o) V * i2 + squares P K V * / 2)%R in G3' by (rewrite <- Eh; ring).
    replace ((misfit K F P (o_A o) (o_U o) (o_V o) + tau * tau * squares P K (o_V o)) * i2)%R with (misfit K F P (o_A o) (o_U o) (o_V o) * i2 + squares P K (o_V o) * / 2)%R in G3' by (rewrite <- Eh; ring).
    replace ((misfit K F P A U V + INR K * (tau * tau) * vsum F (fun f => quad P N (U f) (U f))) * i2)%R
      with (misfit K F P A U V * i2 + INR K * / 2 * vsum F (fun f => quad P N (U f) (U f)))%R in G5' by (rewrite <- Eh; ring).
    replace ((misfit K F P A (o_U o) V + INR K * (tau * tau) * vsum F (fun f => quad P N (o_U o f) (o_U o f))) * i2)%R
      with (misfit K F P A (o_U o) V * i2 + INR K * / 2 * vsum F (fun f => quad P N (o_U o f) (o_U o f)))%R in G5' by (rewrite <- Eh; ring).
    unfold Rdiv in G2'. lra.
  Qed.

  (** *** Without conditions on the words of the topics *)
  Lemma vocab_any lmda v : distributions K T (old_vocab K T D W lmda (old_ln tiny v)) /\ weights K T D W (old_vocab K T D W lmda (old_ln tiny v)).
  Proof.
    assert (HZ : forall d k t, (0 < old_Z K lmda (old_ln tiny v) d k t)%R).
    { intros d k t. unfold old_Z. apply Rdiv_lt_0_compat; [apply exp_pos|]. apply vsum_pos; [exact HK|]. intros. apply exp_pos. }
    set (c := fun k t => vsum D (fun d => W d t * old_Z K lmda (old_ln tiny v) d k t)%R).
    assert (C0 : forall k t, t < T -> (0 <= c k t)%R).
    { intros k t Hti. apply vsum_nonneg. intros d Hd. apply Rmult_le_pos; [apply HW; assumption|left; apply HZ]. }
    assert (C1 : forall k t, occurs T D W t -> (0 < c k t)%R).
    { intros k t [Hti [d [Hd Hp]]]. apply (vsum_pos_one D _ d Hd); [|apply Rmult_lt_0_compat; [exact Hp|apply HZ]].
      intros e He. apply Rmult_le_pos; [apply HW; assumption|left; apply HZ]. }
    assert (C2 : forall k, (0 < vsum T (c k))%R).
    { intros k. destruct some_word as [t Ho]. apply (vsum_pos_one T _ t (proj1 Ho)); [intros; apply C0; assumption|apply C1; exact Ho]. }
    split; intros k Hk; (split; [intros t Hti; unfold old_vocab, norm_rows; fold (c k); change (vsum D (fun d => W d t * old_Z K lmda (old_ln tiny v) d k t)%R) with (c k t)|]).
    - apply Rmult_le_pos; [apply C0; exact Hti|left; apply Rinv_0_lt_compat, C2].
    - unfold old_vocab, norm_rows. fold (c k). rewrite (vsum_ext T _ (fun t => c k t * / vsum T (c k))%R) by reflexivity. rewrite vsum_scale_r. apply Rinv_r. pose proof (C2 k). lra.
    - apply Rmult_le_pos; [apply C0; exact Hti|left; apply Rinv_0_lt_compat, C2].
    - intros t Ho. unfold old_vocab, norm_rows. fold (c k). apply Rdiv_lt_0_compat; [apply (C1 k t Ho)|apply C2].
  Qed.
  (** What an iteration returns. *)
  Lemma iter_parts o q : exists o' q', old_iter K F T P D tiny sigma tau inv W X o q = Ok (o', q') /\ sound o' /\
    distributions K T (o_vocab o') /\ weights K T D W (o_vocab o') /\ o_s q' = o_s q /\
    (forall b, misfit K F P (o_A o) (o_U o) (o_V o') + tau * tau * squares P K (o_V o') <= misfit K F P (o_A o) (o_U o) b + tau * tau * squares P K b)%R /\
    (forall b, forall k, penalised D F (tau * tau / (sigma * sigma)) 1 X (fun d => sigma * sigma / (tau * tau) * o_lmda q d k) (fun f => vsum P (fun p => o_U o f p * o_V o' p k)) (fun f => o_A o' f k)
     <= penalised D F (tau * tau / (sigma * sigma)) 1 X (fun d => sigma * sigma / (tau * tau) * o_lmda q d k) (fun f => vsum P (fun p => o_U o f p * o_V o' p k)) b)%R /\
    (forall b, misfit K F P (o_A o') (o_U o') (o_V o') + INR K * (tau * tau) * vsum F (fun f => quad P (o_varV o') (o_U o' f) (o_U o' f))
      <= misfit K F P (o_A o') b (o_V o') + INR K * (tau * tau) * vsum F (fun f => quad P (o_varV o') (b f) (b f)))%R.
  Proof.
    destruct (varV_ok (o_U o)) as (N & EV & SN & PN & HR & HL). destruct varA_ok as (B & EA & SB & PB & SM & PM & HRA & HLA).
    set (V := old_V F P N (o_U o) (o_A o)). set (A := old_A F P D B X (o_lmda q) (o_U o) V).
    destruct (U_ok A V N SN PN) as (U & EU & BU).
    eexists _, _. split; [unfold old_iter; rewrite EV; cbn [bind]; fold V; rewrite EA; cbn [bind]; fold A; rewrite EU; reflexivity|].
    cbn [o_A o_varA o_V o_varV o_U o_vocab o_s]. split; [repeat split; assumption|]. split; [apply vocab_any|]. split; [apply vocab_any|]. split; [reflexivity|].
    split; [apply V_best; assumption|]. split; [intros b k; apply A_best; assumption|exact BU].
  Qed.
End steps.
