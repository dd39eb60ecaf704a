(** * C128, C130: the objective with which Dirichlet-multinomial regression fits its
    weights (/repo/sidetopics/model/dmr.py lines 255-312), over the real numbers *)
From Coq Require Import List Reals QArith Qreals ZArith Arith Bool Lra Lia.
From Verif Require Import Base EvalSpec RealModel RealProofs MixModel MixProofs VbModel VbProofs RtmField GibbsModel DmrModel.
Import ListNotations.
Open Scope nat_scope.

(** ** Model *)
Section Model.
  (** [lnG] is gammaln, [psi] digamma; [n d k i] is n_dk_samples[d,k,i], of which the
      slice [:sample_count] has [slots] entries, at most as many as the array has. *)
  Context (lnG psi : R -> R) (D K F : nat) (X : nat -> nat -> R) (n : nat -> nat -> nat -> R).
  Context (BatchSize sample_count slots : nat) (sigma : R).

  (** Lines 260-262, 289-291: the documents of the batches. *)
  Definition batches : list (list nat) :=
    map (fun i => let d := i * BatchSize in seq d (Nat.min D (d + BatchSize) - d)) (seq 0 ((D + BatchSize - 1) / BatchSize)).
  (** Lines 266-268, 293-295: alpha. *)
  Definition alpha (weights : nat -> R) (k : nat) (W : nat -> nat -> R) (d j : nat) : R :=
    exp (vsum F (fun f => X d f * (if j =? k then weights f else W j f)))%R.
  (** n_dk_samples[d,:,:sample_count].sum(axis=1) *)
  Definition total_at (d i : nat) : R := vsum K (fun j => n d j i).

  (** Lines 255-281 [objective]. *)
  Definition batch_objective (weights : nat -> R) (k : nat) (W : nat -> nat -> R) (docs : list nat) : R :=
    (rsum (map (fun d => lnG (vsum K (alpha weights k W d))) docs)
     - rsum (map (fun d => vsum slots (fun i => lnG (vsum K (alpha weights k W d) + total_at d i))) docs) / INR sample_count
     + rsum (map (fun d => vsum slots (fun i => lnG (alpha weights k W d k + n d k i))) docs) / INR sample_count
     - rsum (map (fun d => lnG (alpha weights k W d k)) docs))%R.
  Definition objective (weights : nat -> R) (k : nat) (W : nat -> nat -> R) : R :=
    (- (rsum (map (batch_objective weights k W) batches) - / 2 * ln (2 * PI * sigma)
        - / 2 / sigma * vsum F (fun f => weights f * weights f)))%R.

  (** Lines 284-312 [gradient]. *)
  Definition grad_scale (weights : nat -> R) (k : nat) (W : nat -> nat -> R) (d : nat) : R :=
    (psi (vsum K (alpha weights k W d))
     - vsum slots (fun i => psi (vsum K (alpha weights k W d) + total_at d i)) / INR sample_count
     + vsum slots (fun i => psi (alpha weights k W d k + n d k i)) / INR sample_count
     - psi (alpha weights k W d k))%R.
  Definition gradient (weights : nat -> R) (k : nat) (W : nat -> nat -> R) (f : nat) : R :=
    (- (rsum (map (fun docs => rsum (map (fun d => grad_scale weights k W d * (alpha weights k W d k * X d f)) docs)) batches)
        - weights f / sigma))%R.
End Model.

(** ** Specification *)
Section Spec.
  Context (lnG : R -> R) (D K F : nat) (X : nat -> nat -> R) (n : nat -> nat -> nat -> R) (samples : nat) (sigma : R).
  (** The log density of the topic counts of a document given its features, under a
      Dirichlet prior exp(x.w) per topic. *)
  Definition doc_likelihood (W : nat -> nat -> R) (d i : nat) : R :=
    let a := fun j => exp (vsum F (fun f => X d f * W j f))%R in
    (lnG (vsum K a) - lnG (vsum K a + vsum K (fun j => n d j i))
     + vsum K (fun j => lnG (a j + n d j i) - lnG (a j)))%R.
  (** Its average over the samples, and a normal prior of the weights. *)
  Definition posterior (W : nat -> nat -> R) : R :=
    (vsum samples (fun i => vsum D (fun d => doc_likelihood W d i)) / INR samples
     - vsum K (fun j => vsum F (fun f => W j f * W j f)) / (2 * sigma))%R.
  Definition with_row (W : nat -> nat -> R) (k : nat) (row : nat -> R) : nat -> nat -> R :=
    fun j f => if j =? k then row f else W j f.
End Spec.
Definition moved (v : nat -> R) (f : nat) (x : R) : nat -> R := fun g => if g =? f then x else v g.

(** ** Batches *)
Lemma batches_up_to D B m : 0 < B -> concat (map (fun i => seq (i * B) (Nat.min D (i * B + B) - i * B)) (seq 0 m)) = seq 0 (Nat.min D (m * B)).
Proof.
  intros HB. induction m as [|m IH]; [destruct D; reflexivity|].
  rewrite seq_S, map_app, concat_app, IH. cbn [map concat Nat.add]. rewrite app_nil_r.
  destruct (Nat.le_gt_cases D (m * B)) as [H|H].
  - replace (Nat.min D (m * B + B) - m * B) with 0 by lia. cbn [seq]. rewrite app_nil_r. f_equal. lia.
  - replace (Nat.min D (m * B)) with (m * B) by lia.
    replace (Nat.min D (S m * B)) with (m * B + (Nat.min D (m * B + B) - m * B)) by lia. rewrite seq_app. reflexivity.
Qed.
(** The batches are all the documents, once each and in order. *)
Lemma batches_all D B : 0 < B -> concat (batches D B) = seq 0 D.
Proof.
  intros HB. unfold batches. rewrite batches_up_to by exact HB. f_equal.
  pose proof (Nat.div_mod (D + B - 1) B ltac:(lia)). pose proof (Nat.mod_upper_bound (D + B - 1) B ltac:(lia)). nia.
Qed.
Lemma rsum_app l1 l2 : rsum (l1 ++ l2) = (rsum l1 + rsum l2)%R.
Proof. induction l1 as [|x l1 IH]; cbn [app rsum]; [ring|]. rewrite IH. ring. Qed.
Lemma rsum_batched {A} (f : A -> R) (ll : list (list A)) : rsum (map (fun l => rsum (map f l)) ll) = rsum (map f (concat ll)).
Proof.
  induction ll as [|l ll IH]; [reflexivity|]. cbn [map rsum concat]. rewrite map_app, rsum_app, IH. reflexivity.
Qed.
Lemma rsum_minus {A} (f g : A -> R) l : rsum (map (fun x => f x - g x)%R l) = (rsum (map f l) - rsum (map g l))%R.
Proof. induction l as [|x l IH]; cbn [map rsum]; [ring|]. rewrite IH. ring. Qed.
Lemma rsum_div {A} (f : A -> R) c l : rsum (map (fun x => f x / c)%R l) = (rsum (map f l) / c)%R.
Proof. induction l as [|x l IH]; cbn [map rsum]; [unfold Rdiv; ring|]. rewrite IH. unfold Rdiv. ring. Qed.

Section Batched.
  Context (lnG psi : R -> R) (D K F : nat) (X : nat -> nat -> R) (n : nat -> nat -> nat -> R).
  Context (B S0 slots : nat) (sigma : R).
  Hypothesis HB : 0 < B.
  Notation obj := (objective lnG D K F X n B S0 slots sigma).
  Notation al := (alpha F X).

  Definition doc_objective (weights : nat -> R) (k : nat) (W : nat -> nat -> R) (d : nat) : R :=
    (lnG (vsum K (al weights k W d))
     - vsum slots (fun i => lnG (vsum K (al weights k W d) + total_at K n d i)) / INR S0
     + vsum slots (fun i => lnG (al weights k W d k + n d k i)) / INR S0
     - lnG (al weights k W d k))%R.
  Lemma batch_objective_sum weights k W docs :
    batch_objective lnG K F X n S0 slots weights k W docs = rsum (map (doc_objective weights k W) docs).
  Proof.
    unfold batch_objective. induction docs as [|d docs IH]; cbn [map rsum]; [unfold Rdiv; ring|].
    rewrite <- IH. unfold doc_objective. unfold Rdiv. ring.
  Qed.
  Lemma objective_sum weights k W :
    obj weights k W = (- (vsum D (doc_objective weights k W) - / 2 * ln (2 * PI * sigma) - / 2 / sigma * vsum F (fun f => weights f * weights f)))%R.
  Proof.
    unfold objective. rewrite (map_ext _ _ (batch_objective_sum weights k W)), rsum_batched, batches_all by exact HB. reflexivity.
  Qed.
End Batched.

Lemma vsum_moved F (v x : nat -> R) f y : f < F ->
  vsum F (fun g => x g * moved v f y g)%R = (vsum F (fun g => x g * v g) + x f * (y - v f))%R.
Proof.
  intros Hf. pose proof (shifted_sum F v x 1 f (y - v f) Hf) as E.
  rewrite (vsum_ext F _ (fun j => shifted v 1 f (y - v f) j * x j)%R).
  - rewrite E. rewrite (vsum_ext F (fun j => v j * x j)%R (fun g => x g * v g)%R) by (intros; ring). field.
  - intros g _. unfold shifted, moved. destruct (Nat.eqb_spec g f) as [->|]; field.
Qed.
Lemma derivable_ext (f g : R -> R) x l : (forall y, f y = g y) -> derivable_pt_lim f x l -> derivable_pt_lim g x l.
Proof.
  intros E H eps He. destruct (H eps He) as [del Hd]. exists del. intros h Hh Hh'. rewrite <- !E. apply Hd; assumption.
Qed.
Lemma derivable_as (f g : R -> R) x l l' : derivable_pt_lim f x l -> (forall y, f y = g y) -> l = l' -> derivable_pt_lim g x l'.
Proof. intros H E <-. exact (derivable_ext f g x l E H). Qed.
Lemma derivable_vsum m (f : nat -> R -> R) (f' : nat -> R) x :
  (forall i, i < m -> derivable_pt_lim (f i) x (f' i)) ->
  derivable_pt_lim (fun y => vsum m (fun i => f i y)) x (vsum m f').
Proof. intros H. apply derivable_rsum. intros i Hi. apply H. apply in_seq in Hi. lia. Qed.

(** ** C130 *)
(** The vector returned by [gradient] is the derivative of [objective], whatever the
    size of the batches. *)
Theorem C130_gradient_is_derivative lnG psi D K F X n B S0 slots sigma weights k W f :
  0 < B -> 0 < S0 -> sigma <> 0%R -> k < K -> f < F -> (forall d j i, (0 <= n d j i)%R) ->
  (forall y, (0 < y)%R -> derivable_pt_lim lnG y (psi y)) ->
  derivable_pt_lim (fun x => objective lnG D K F X n B S0 slots sigma (moved weights f x) k W) (weights f)
    (gradient psi D K F X n B S0 slots sigma weights k W f).
Proof.
  intros HB HS Hsig Hk Hf Hn Hpsi.
  set (A := fun d j x => alpha F X (moved weights f x) k W d j).
  assert (EA : forall d j, A d j (weights f) = alpha F X weights k W d j).
  { intros d j. unfold A, alpha. f_equal. apply vsum_ext. intros g _. destruct (j =? k); [|reflexivity]. unfold moved.
    destruct (Nat.eqb_spec g f) as [->|]; reflexivity. }
  assert (DA : forall d j, derivable_pt_lim (A d j) (weights f) (if j =? k then alpha F X weights k W d k * X d f else 0)%R).
  { intros d j. destruct (Nat.eqb_spec j k) as [->|NE].
    - apply (derivable_ext (fun x => exp (vsum F (fun g => X d g * weights g) + X d f * (x - weights f)))%R).
      { intros y. unfold A, alpha. rewrite Nat.eqb_refl. f_equal. symmetry. apply vsum_moved. exact Hf. }
      replace (alpha F X weights k W d k * X d f)%R
        with (exp (vsum F (fun g => X d g * weights g) + X d f * (weights f - weights f)) * (0 + X d f * (1 - 0)))%R.
      2:{ unfold alpha. rewrite Nat.eqb_refl. replace (weights f - weights f)%R with 0%R by ring. rewrite Rmult_0_r, Rplus_0_r. ring. }
      apply (derivable_pt_lim_comp (fun x => vsum F (fun g => X d g * weights g) + X d f * (x - weights f))%R exp).
      + apply (derivable_pt_lim_plus (fun _ => vsum F (fun g => X d g * weights g)%R) (fun x => X d f * (x - weights f))%R); [apply derivable_pt_lim_const|].
        apply (derivable_pt_lim_scal (fun x => x - weights f)%R).
        apply (derivable_pt_lim_minus (fun x => x) (fun _ => weights f)); [apply derivable_pt_lim_id|apply derivable_pt_lim_const].
      + apply derivable_pt_lim_exp.
    - apply (derivable_ext (fun _ => exp (vsum F (fun g => X d g * W j g)))%R); [|apply derivable_pt_lim_const].
      intros y. unfold A, alpha. destruct (Nat.eqb_spec j k); [contradiction|reflexivity]. }
  set (da := fun d => (alpha F X weights k W d k * X d f)%R).
  assert (DS : forall d, derivable_pt_lim (fun x => vsum K (fun j => A d j x)) (weights f) (da d)).
  { intros d. pose proof (derivable_vsum K (fun j x => A d j x) (fun j => if j =? k then da d else 0)%R (weights f) (fun j _ => DA d j)) as H.
    replace (vsum K (fun j => if j =? k then da d else 0)%R) with (da d) in H; [exact H|].
    pose proof (shifted_sum K (fun _ => 0%R) (fun _ => 1%R) 1 k (da d) Hk) as E. cbv beta in E.
    rewrite (vsum_ext K (fun j => shifted (fun _ => 0%R) 1 k (da d) j * 1)%R (fun j => if j =? k then da d else 0)%R) in E.
    - rewrite E, vsum_const. field.
    - intros j _. unfold shifted. destruct (j =? k); field. }
  assert (PA : forall d j x, (0 < A d j x)%R) by (intros; apply exp_pos).
  assert (PS : forall d x, (0 < vsum K (fun j => A d j x))%R) by (intros; apply vsum_pos; [lia|intros; apply PA]).
  assert (ES : forall d, vsum K (fun j => A d j (weights f)) = vsum K (alpha F X weights k W d)) by (intros; apply vsum_ext; intros; apply EA).
  assert (DG : forall (g : R -> R) (g' c : R), derivable_pt_lim g (weights f) g' -> (0 < g (weights f) + c)%R ->
     derivable_pt_lim (fun x => lnG (g x + c)%R) (weights f) (psi (g (weights f) + c) * g')%R).
  { intros g g' c Hg Hp. replace g' with (g' + 0)%R at 1 by ring.
    apply (derivable_pt_lim_comp (fun x => g x + c)%R lnG); [|apply Hpsi; exact Hp].
    apply (derivable_pt_lim_plus g (fun _ => c)); [exact Hg|apply derivable_pt_lim_const]. }
  assert (NT : forall d i, (0 <= total_at K n d i)%R) by (intros; apply vsum_nonneg; intros; apply Hn).
  assert (DD : forall d, derivable_pt_lim (fun x => doc_objective lnG K F X n S0 slots (moved weights f x) k W d) (weights f)
     (grad_scale psi K F X n S0 slots weights k W d * da d)%R).
  { intros d.
    pose proof (DG _ _ 0%R (DS d) ltac:(pose proof (PS d (weights f)); lra)) as H1.
    pose proof (derivable_vsum slots (fun i x => lnG (vsum K (fun j => A d j x) + total_at K n d i))%R _ (weights f)
      (fun i _ => DG _ _ (total_at K n d i) (DS d) ltac:(pose proof (PS d (weights f)); pose proof (NT d i); lra))) as H2.
    pose proof (DA d k) as DAk. rewrite Nat.eqb_refl in DAk. fold (da d) in DAk.
    pose proof (derivable_vsum slots (fun i x => lnG (A d k x + n d k i))%R _ (weights f)
      (fun i _ => DG _ _ (n d k i) DAk ltac:(pose proof (PA d k (weights f)); pose proof (Hn d k i); lra))) as H3.
    pose proof (DG _ _ 0%R DAk ltac:(pose proof (PA d k (weights f)); lra)) as H4.
    apply (derivable_pt_lim_scal _ (/ INR S0)) in H2. apply (derivable_pt_lim_scal _ (/ INR S0)) in H3.
    pose proof (derivable_pt_lim_minus _ _ _ _ _ (derivable_pt_lim_plus _ _ _ _ _ (derivable_pt_lim_minus _ _ _ _ _ H1 H2) H3) H4) as H. clear H1 H2 H3 H4.
    apply (derivable_as _ _ _ _ _ H); cbv beta.
    - intros x. unfold plus_fct, minus_fct, mult_real_fct, doc_objective. rewrite !Rplus_0_r.
      unfold A. change (fun j => alpha F X (moved weights f x) k W d j) with (alpha F X (moved weights f x) k W d). unfold Rdiv. ring.
    - rewrite (vsum_scale_r slots (da d) (fun i => psi (vsum K (fun j => A d j (weights f)) + total_at K n d i))%R).
      rewrite (vsum_scale_r slots (da d) (fun i => psi (A d k (weights f) + n d k i))%R).
      rewrite !Rplus_0_r, !ES, !EA. unfold grad_scale, Rdiv. 
      replace (vsum slots (fun i => psi (vsum K (fun j => A d j (weights f)) + total_at K n d i))%R)
        with (vsum slots (fun i => psi (vsum K (alpha F X weights k W d) + total_at K n d i))%R) by (apply vsum_ext; intros; rewrite ES; reflexivity).
      ring. }
  pose proof (derivable_vsum D (fun d x => doc_objective lnG K F X n S0 slots (moved weights f x) k W d) _ (weights f) (fun d _ => DD d)) as H1.
  assert (H2 : derivable_pt_lim (fun x => vsum F (fun g => moved weights f x g * moved weights f x g))%R (weights f) (2 * weights f)%R).
  { pose proof (derivable_vsum F (fun g x => moved weights f x g * moved weights f x g)%R (fun g => if g =? f then 2 * weights f else 0)%R (weights f)) as H.
    replace (vsum F (fun g => if g =? f then 2 * weights f else 0)%R) with (2 * weights f)%R in H.
    - apply H. intros g _. unfold moved. destruct (g =? f); [|apply derivable_pt_lim_const].
      replace (2 * weights f)%R with (1 * weights f + weights f * 1)%R by ring.
      apply (derivable_pt_lim_mult (fun x => x) (fun x => x)); apply derivable_pt_lim_id.
    - pose proof (shifted_sum F (fun _ => 0%R) (fun _ => 1%R) 1 f (2 * weights f) Hf) as E. cbv beta in E.
      rewrite (vsum_ext F (fun j => shifted (fun _ => 0%R) 1 f (2 * weights f) j * 1)%R (fun j => if j =? f then 2 * weights f else 0)%R) in E.
      + rewrite E, vsum_const. field.
      + intros j _. unfold shifted. destruct (j =? f); field. }
  pose proof (derivable_pt_lim_const (/ 2 * ln (2 * PI * sigma)) (weights f)) as H3.
  apply (derivable_pt_lim_scal _ (/ 2 / sigma)) in H2.
  pose proof (derivable_pt_lim_opp _ _ _ (derivable_pt_lim_minus _ _ _ _ _ (derivable_pt_lim_minus _ _ _ _ _ H1 H3) H2)) as H.
  apply (derivable_as _ _ _ _ _ H); cbv beta.
  - intros x. unfold opp_fct, minus_fct, mult_real_fct, fct_cte. rewrite objective_sum by exact HB. reflexivity.
  - unfold gradient. rewrite rsum_batched, batches_all by exact HB.
    change (rsum (map _ (seq 0 D))) with (vsum D (fun d => grad_scale psi K F X n S0 slots weights k W d * da d)%R).
    field. exact Hsig.
Qed.

(** The objective of one topic is, up to a constant, the negative logarithm of the
    posterior of the weights as a function of that topic's, if the samples that are
    counted are all there. *)
Theorem C130_objective_is_posterior lnG D K F X n B S0 sigma k W weights weights' :
  0 < B -> 0 < S0 -> sigma <> 0%R -> k < K ->
  let post := posterior lnG D K F X n S0 sigma in
  (objective lnG D K F X n B S0 S0 sigma weights k W - objective lnG D K F X n B S0 S0 sigma weights' k W
   = post (with_row W k weights') - post (with_row W k weights))%R.
Proof.
  intros HB HS Hsig Hk post.
  (* what does not depend on the row *)
  set (rest := fun d i => vsum K (fun j => if j =? k then 0 else
       lnG (exp (vsum F (fun f => X d f * W j f))%R + n d j i) - lnG (exp (vsum F (fun f => X d f * W j f))%R))%R).
  set (restw := vsum K (fun j => if j =? k then 0 else vsum F (fun f => W j f * W j f))%R).
  assert (Hsplit : forall (g h : nat -> R), vsum K (fun j => if j =? k then g j else h j) = (g k + vsum K (fun j => if j =? k then 0 else h j))%R).
  { intros g h. pose proof (shifted_sum K (fun _ => 0%R) (fun _ => 1%R) 1 k (g k) Hk) as E. cbv beta in E.
    rewrite (vsum_ext K _ (fun j => shifted (fun _ => 0%R) 1 k (g k) j * 1 + (if j =? k then 0 else h j))%R).
    - rewrite vsum_plus, E, vsum_const. f_equal. field.
    - intros j _. unfold shifted. destruct (Nat.eqb_spec j k) as [->|]; field. }
  assert (HI : (INR S0 <> 0)%R) by (apply not_0_INR; lia).
  assert (G : forall row, post (with_row W k row) = (- objective lnG D K F X n B S0 S0 sigma row k W + / 2 * ln (2 * PI * sigma)
              + vsum S0 (fun i => vsum D (fun d => rest d i)) / INR S0 - restw / (2 * sigma))%R).
  { intros row. rewrite objective_sum by exact HB. unfold post, posterior.
    assert (Ed : forall d i, doc_likelihood lnG K F X n (with_row W k row) d i =
       (lnG (vsum K (alpha F X row k W d)) - lnG (vsum K (alpha F X row k W d) + total_at K n d i)
        + (lnG (alpha F X row k W d k + n d k i) - lnG (alpha F X row k W d k)) + rest d i)%R).
    { intros d i. unfold doc_likelihood. cbv zeta.
      assert (Ea : forall j, exp (vsum F (fun f => X d f * with_row W k row j f)%R) = alpha F X row k W d j) by reflexivity.
      rewrite (vsum_ext K (fun j => lnG (exp (vsum F (fun f => X d f * with_row W k row j f)) + n d j i) - lnG (exp (vsum F (fun f => X d f * with_row W k row j f))))%R
        (fun j => if j =? k then lnG (alpha F X row k W d j + n d j i) - lnG (alpha F X row k W d j)
                  else lnG (exp (vsum F (fun f => X d f * W j f)) + n d j i) - lnG (exp (vsum F (fun f => X d f * W j f))))%R).
      - rewrite (Hsplit (fun j => lnG (alpha F X row k W d j + n d j i) - lnG (alpha F X row k W d j))%R). unfold rest, total_at.
        change (fun j => exp (vsum F (fun f => X d f * with_row W k row j f))%R) with (alpha F X row k W d). ring.
      - intros j _. rewrite Ea. unfold alpha. destruct (j =? k); reflexivity. }
    rewrite (vsum_ext K (fun j => vsum F (fun f => with_row W k row j f * with_row W k row j f))%R
      (fun j => if j =? k then vsum F (fun f => row f * row f) else vsum F (fun f => W j f * W j f))%R).
    2:{ intros j _. unfold with_row. destruct (j =? k); reflexivity. }
    rewrite (Hsplit (fun _ => vsum F (fun f => row f * row f)%R)). fold restw.
    rewrite (vsum_ext S0 _ (fun i => vsum D (fun d => lnG (vsum K (alpha F X row k W d)) - lnG (vsum K (alpha F X row k W d) + total_at K n d i)
        + (lnG (alpha F X row k W d k + n d k i) - lnG (alpha F X row k W d k))) + vsum D (fun d => rest d i))%R).
    2:{ intros i _. rewrite <- vsum_plus. apply vsum_ext. intros d _. apply Ed. }
    rewrite vsum_plus, vsum_swap.
    enough (Em : (vsum D (fun d => vsum S0 (fun i => lnG (vsum K (alpha F X row k W d)) - lnG (vsum K (alpha F X row k W d) + total_at K n d i)
        + (lnG (alpha F X row k W d k + n d k i) - lnG (alpha F X row k W d k)))) = INR S0 * vsum D (doc_objective lnG K F X n S0 S0 row k W))%R).
    { rewrite Em. field. split; assumption. }
    rewrite <- vsum_scale. apply vsum_ext. intros d _. unfold doc_objective.
    rewrite (vsum_ext S0 _ (fun i => (lnG (vsum K (alpha F X row k W d)) - lnG (alpha F X row k W d k)) + (-1 * lnG (vsum K (alpha F X row k W d) + total_at K n d i)
        + lnG (alpha F X row k W d k + n d k i)))%R) by (intros; ring).
    rewrite !vsum_plus, vsum_const, vsum_scale. field. exact HI. }
  rewrite !G. ring.
Qed.

(** A small case: the objective is differentiable there and the gradient is not zero. *)
Example C130_case : forall lnG psi, (forall y, (0 < y)%R -> derivable_pt_lim lnG y (psi y)) ->
  exists g, derivable_pt_lim (fun x => objective lnG 3 2 1 (fun _ _ => 1%R) (fun _ j i => INR (j + i)) 2 2 2 1 (moved (fun _ => 0%R) 0 x) 0 (fun _ _ => 0%R)) 0 g /\
  batches 3 2 = [[0; 1]; [2]] /\
  g = gradient psi 3 2 1 (fun _ _ => 1%R) (fun _ j i => INR (j + i)) 2 2 2 1 (fun _ => 0%R) 0 (fun _ _ => 0%R) 0.
Proof.
  intros lnG psi H. eexists. split; [|split; [reflexivity|reflexivity]].
  apply (C130_gradient_is_derivative lnG psi 3 2 1 (fun _ _ => 1%R) (fun _ j i => INR (j + i)) 2 2 2 1 (fun _ => 0%R) 0 (fun _ _ => 0%R) 0); try lia; try assumption; try lra.
  intros. apply pos_INR.
Qed.

(** ** C128 *)
(** The weights are fitted for the prior exp(x.w); the sampler uses x.w. *)
Lemma Q2R_alphas F X weights d k :
  Q2R (dmr_alphas F X weights d k) = vsum F (fun f => Q2R (X d f) * Q2R (weights k f))%R.
Proof.
  unfold dmr_alphas, vsum, qsum. induction (seq 0 F) as [|f l IH]; cbn [map rsum fold_right].
  - unfold Q2R. cbn. lra.
  - rewrite Q2R_plus, Q2R_mult. f_equal. exact IH.
Qed.
Theorem C128_sampler_prior_is_smaller F X weights d k W :
  (Q2R (dmr_alphas F X weights d k) < alpha F (fun d f => Q2R (X d f)) (fun f => Q2R (weights k f)) k W d k)%R.
Proof.
  rewrite Q2R_alphas. unfold alpha. rewrite Nat.eqb_refl.
  set (x := vsum F (fun f => Q2R (X d f) * Q2R (weights k f))%R).
  destruct (Req_dec x 0) as [->|H]; [rewrite exp_0; lra|]. pose proof (exp_ineq1 x H). lra.
Qed.
(** It never is the one that the weights are fitted for, and for some weights not
    even positive. *)
Theorem C128_sampler_uses_fitted_prior_refuted :
  (exists F X weights d k W, Q2R (dmr_alphas F X weights d k) <> alpha F (fun d f => Q2R (X d f)) (fun f => Q2R (weights k f)) k W d k) /\
  (exists F X weights d k W, (Q2R (dmr_alphas F X weights d k) < 0)%R /\ (0 < alpha F (fun d f => Q2R (X d f)) (fun f => Q2R (weights k f)) k W d k)%R).
Proof.
  split.
  - exists 1, (fun _ _ => 1%Q), (fun _ _ => (1#20)%Q), 0, 0, (fun _ _ => 0%R).
    pose proof (C128_sampler_prior_is_smaller 1 (fun _ _ => 1%Q) (fun _ _ => (1#20)%Q) 0 0 (fun _ _ => 0%R)). lra.
  - exists 1, (fun _ _ => 1%Q), (fun _ _ => (-1)%Q), 0, 0, (fun _ _ => 0%R). split; [|apply exp_pos].
    rewrite Q2R_alphas. unfold vsum. cbn [map rsum seq]. unfold Q2R. cbn. lra.
Qed.
Example C128_case : Q2R (dmr_alphas 1 (fun _ _ => 1%Q) (fun _ _ => (1#20)%Q) 0 0) = (1 / 20)%R.
Proof. rewrite Q2R_alphas. unfold vsum. cbn [map rsum seq]. unfold Q2R. cbn. lra. Qed.

Print Assumptions C130_gradient_is_derivative.
Print Assumptions C130_objective_is_posterior.
Print Assumptions C128_sampler_prior_is_smaller.
Print Assumptions C128_sampler_uses_fitted_prior_refuted.
