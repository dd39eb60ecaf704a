(** * Proofs about the learning of offsets. *)
From Coq Require Import List ZArith Reals Arith Bool Lia Lra Permutation.
From Verif Require Import Base RealModel VbModel RealProofs VbProofs BoundProofs OffModel OffSpec.
Import ListNotations.
Open Scope nat_scope.

(** ** Sums *)
Lemma rsum_filter (P : nat -> bool) (f : nat -> R) l :
  rsum (map f (filter P l)) = rsum (map (fun d => if P d then f d else 0%R) l).
Proof.
  induction l as [|x l IH]; [reflexivity|]. cbn [filter map]. destruct (P x); cbn [map rsum fold_right].
  - unfold rsum in *. cbn [fold_right]. rewrite IH. reflexivity.
  - unfold rsum in *. cbn [fold_right]. rewrite IH. ring.
Qed.
Lemma vsum_one n d (f : vec) : d < n -> vsum n (fun i => if i =? d then f i else 0%R) = f d.
Proof.
  induction n as [|n IH]; [lia|]. intros H. rewrite vsum_S. destruct (Nat.eq_dec d n) as [->|N].
  - rewrite Nat.eqb_refl, (vsum_ext n _ (fun _ => 0%R)).
    + rewrite vsum_const. ring.
    + intros i Hi. destruct (Nat.eqb_spec i n); [lia|reflexivity].
  - rewrite IH by lia. destruct (Nat.eqb_spec n d); [lia|ring].
Qed.
Lemma vdot_comm K u v : vdot K u v = vdot K v u.
Proof. apply vsum_ext. intros k _. ring. Qed.
Lemma vdot_ext K u u' v v' : (forall k, k < K -> u k = u' k) -> (forall k, k < K -> v k = v' k) -> vdot K u v = vdot K u' v'.
Proof. intros A B. apply vsum_ext. intros k Hk. rewrite A, B by exact Hk. reflexivity. Qed.
Lemma vdot_meet K tops offs d p : vdot K (tops d) (offs p) = meet K tops offs d p.
Proof. reflexivity. Qed.
Lemma vmat_outer K v a b : vdot K (vmat K v (outer a b)) v = (vdot K a v * vdot K b v)%R.
Proof.
  unfold vdot, vmat, outer.
  transitivity (vsum K (fun k => (vsum K (fun j => a j * v j) * (b k * v k))%R)).
  - apply vsum_ext. intros k _. rewrite (vsum_ext K _ (fun j => (a j * v j * b k)%R)) by (intros; ring).
    rewrite vsum_scale_r. ring.
  - rewrite vsum_scale. reflexivity.
Qed.
Lemma vmat_sum K D v (A : nat -> vec) :
  vdot K (vmat K v (fun j k => vsum D (fun d => (A d j * A d k)%R))) v = vsum D (fun d => (vdot K (A d) v) ^ 2)%R.
Proof.
  transitivity (vsum D (fun d => vdot K (vmat K v (outer (A d) (A d))) v)).
  - unfold vdot, vmat, outer.
    rewrite (vsum_ext K _ (fun k => vsum D (fun d => vsum K (fun j => (v j * (A d j * A d k) * v k)%R)))).
    + rewrite vsum_swap. apply vsum_ext. intros d _. apply vsum_ext. intros k _. rewrite vsum_scale_r. reflexivity.
    + intros k _. rewrite (vsum_ext K _ (fun j => vsum D (fun d => (v j * (A d j * A d k))%R))).
      * rewrite vsum_swap, <- vsum_scale_r. apply vsum_ext. intros d _. rewrite vsum_scale_r. reflexivity.
      * intros j _. rewrite vsum_scale. reflexivity.
  - apply vsum_ext. intros d _. rewrite vmat_outer. ring.
Qed.

Section Step.
  Context (inv : nat -> mat -> res mat) (K D : nat) (links : list (list nat)) (w0 w1 lam : R) (tops : mat).
  Notation linked := (has_link links).
  Notation weight := (pair_weight w0 w1 linked).

  Lemma cites_link d p : cites links d p = linked d p.
  Proof.
    unfold cites, has_link. destruct (in_dec Nat.eq_dec p (nth d links [])) as [H|H].
    - apply existsb_exists. exists p. split; [exact H|apply Nat.eqb_refl].
    - destruct (existsb (Nat.eqb p) (nth d links [])) eqn:E; [|reflexivity].
      apply existsb_exists in E. destruct E as [x [I X]]. apply Nat.eqb_eq in X. subst x. contradiction.
  Qed.
  Lemma inlinks_sum p (f : nat -> R) :
    rsum (map f (inlinks D links p)) = vsum D (fun d => if linked d p then f d else 0%R).
  Proof.
    unfold inlinks. rewrite rsum_filter. apply vsum_ext. intros d _. rewrite cites_link. reflexivity.
  Qed.
  Lemma self_free p : no_self_links D links -> p < D -> linked p p = false.
  Proof.
    intros H L. unfold has_link. destruct (in_dec Nat.eq_dec p (nth p links [])) as [I|I]; [destruct (H p L I)|reflexivity].
  Qed.
  (** The weights of the code are those of the pairs. *)
  Lemma weights_sum (p : nat) (f : nat -> R) : no_self_links D links -> p < D ->
    ((w1 - w0) * vsum D (fun d => if linked d p then f d else 0) + w0 * (vsum D f - f p))%R
    = vsum D (fun d => (weight d p * f d)%R).
  Proof.
    intros S L. rewrite <- (vsum_one D p f L).
    rewrite (vsum_ext D (fun d => (weight d p * f d)%R)
               (fun d => ((w1 - w0) * (if linked d p then f d else 0) + w0 * (f d + (-1) * (if d =? p then f d else 0)))%R)).
    - rewrite vsum_plus, vsum_scale. f_equal. rewrite vsum_scale, vsum_plus, vsum_scale. ring.
    - intros d Hd. unfold pair_weight. destruct (linked d p) eqn:E.
      + destruct (Nat.eqb_spec d p) as [->|N]; [|ring]. rewrite (self_free p S L) in E. discriminate.
      + destruct (d =? p); ring.
  Qed.

  Lemma scale_lhs_is offs p : no_self_links D links -> p < D ->
    scale_lhs K D links w0 w1 tops offs p = vsum D (fun d => (weight d p * (meet K tops offs d p) ^ 2)%R).
  Proof.
    intros S L. unfold scale_lhs. rewrite inlinks_sum, vmat_outer. unfold topsSum. rewrite vmat_sum.
    rewrite <- (weights_sum p (fun d => ((meet K tops offs d p) ^ 2)%R) S L).
    unfold meet. change (vsum K (fun k => (tops p k * offs p k)%R)) with (vdot K (tops p) (offs p)).
    f_equal. f_equal. f_equal. ring.
  Qed.
  Lemma scale_rhs_is offs p :
    scale_rhs K D links w1 tops offs p = vsum D (fun d => if linked d p then (w1 * meet K tops offs d p)%R else 0%R).
  Proof.
    unfold scale_rhs. rewrite inlinks_sum, <- vsum_scale. apply vsum_ext. intros d _. destruct (linked d p); [reflexivity|ring].
  Qed.
  Definition side_l (offs : mat) : R := vsum D (fun p => vsum D (fun d => (weight d p * (meet K tops offs d p) ^ 2)%R)).
  Definition side_r (offs : mat) : R := vsum D (fun p => vsum D (fun d => if linked d p then (w1 * meet K tops offs d p)%R else 0%R)).
  Lemma lhs_is offs : no_self_links D links -> vsum D (scale_lhs K D links w0 w1 tops offs) = side_l offs.
  Proof. intros S. apply vsum_ext. intros p L. apply scale_lhs_is; assumption. Qed.
  Lemma rhs_is offs : vsum D (scale_rhs K D links w1 tops offs) = side_r offs.
  Proof. apply vsum_ext. intros p L. apply scale_rhs_is. Qed.

  (** The misfit is a square in the scale. *)
  Lemma misfit_square s offs :
    misfit w0 w1 K D linked tops s offs
    = (s * s * side_l offs - 2 * s * side_r offs + vsum D (fun p => vsum D (fun d => if linked d p then w1 else 0%R)))%R.
  Proof.
    unfold misfit, side_l, side_r.
    replace (s * s * vsum D (fun p => vsum D (fun d => (weight d p * (meet K tops offs d p) ^ 2)%R)))%R
      with (vsum D (fun p => (s * s * vsum D (fun d => (weight d p * (meet K tops offs d p) ^ 2)%R))%R)) by apply vsum_scale.
    replace (2 * s * vsum D (fun p => vsum D (fun d => if linked d p then (w1 * meet K tops offs d p)%R else 0%R)))%R
      with (- vsum D (fun p => (-1 * (2 * s * vsum D (fun d => if linked d p then (w1 * meet K tops offs d p)%R else 0%R)))%R))%R.
    2: { rewrite vsum_scale, vsum_scale. ring. }
    unfold Rminus. rewrite Ropp_involutive, <- vsum_plus, <- vsum_plus. apply vsum_ext. intros p L.
    rewrite <- vsum_scale, <- Rmult_assoc, <- vsum_scale, <- vsum_plus, <- vsum_plus. apply vsum_ext. intros d Ld.
    unfold pair_weight. destruct (linked d p); [ring|]. destruct (d =? p); ring.
  Qed.
  Lemma misfit_best s offs : side_l offs <> 0%R ->
    (misfit w0 w1 K D linked tops s offs
     = misfit w0 w1 K D linked tops (side_r offs / side_l offs) offs
       + side_l offs * (s - side_r offs / side_l offs) ^ 2)%R.
  Proof. intros N. rewrite 2 misfit_square. field. exact N. Qed.

  Lemma side_l_nonneg offs : (0 <= w0)%R -> (0 <= w1)%R -> (0 <= side_l offs)%R.
  Proof.
    intros A B. apply vsum_nonneg. intros p _. apply vsum_nonneg. intros d _. apply Rmult_le_pos; [|apply pow2_ge_0].
    unfold pair_weight. destruct (linked d p); [exact B|]. destruct (d =? p); [lra|exact A].
  Qed.
  Lemma side_l_pos offs d p : (0 < w0)%R -> (0 < w1)%R -> d < D -> p < D -> d <> p -> meet K tops offs d p <> 0%R ->
    (0 < side_l offs)%R.
  Proof.
    intros A B Ld Lp N M.
    assert (W : forall d p, (0 <= weight d p)%R).
    { intros. unfold pair_weight. destruct (linked _ _); [lra|]. destruct (_ =? _); lra. }
    apply Rlt_le_trans with (weight d p * (meet K tops offs d p) ^ 2)%R.
    - apply Rmult_lt_0_compat.
      + unfold pair_weight. destruct (linked d p); [exact B|]. destruct (Nat.eqb_spec d p); [lia|exact A].
      + assert (0 <= meet K tops offs d p ^ 2)%R by apply pow2_ge_0.
        assert (meet K tops offs d p ^ 2 <> 0)%R by (apply pow_nonzero; exact M). lra.
    - apply Rle_trans with (vsum D (fun d => (weight d p * (meet K tops offs d p) ^ 2)%R)).
      + apply (vsum_in_le D (fun d => (weight d p * (meet K tops offs d p) ^ 2)%R)).
        * intros i _. apply Rmult_le_pos; [apply W|apply pow2_ge_0].
        * exact Ld.
      + apply (vsum_in_le D (fun p => vsum D (fun d => (weight d p * (meet K tops offs d p) ^ 2)%R))).
        * intros i _. apply vsum_nonneg. intros j _. apply Rmult_le_pos; [apply W|apply pow2_ge_0].
        * exact Lp.
  Qed.

  (** ** The offsets *)
  Lemma offset_matrix_is s p : no_self_links D links -> p < D -> forall j k,
    offset_matrix D links w0 w1 lam tops s p j k
    = (s * s * pull w0 w1 D linked tops p j * tops p k + (if j =? k then lam else 0))%R.
  Proof.
    intros S L j k. unfold offset_matrix, outer, pull. rewrite inlinks_sum.
    rewrite <- (weights_sum p (fun d => tops d j) S L). f_equal. ring.
  Qed.
  Lemma offset_rhs_is s p j : offset_rhs D links w1 tops s p j = (tops p j + s * w1 * fans D linked tops p j)%R.
  Proof. unfold offset_rhs, fans. rewrite inlinks_sum. reflexivity. Qed.
End Step.

(** ** The inverse of a multiple of the identity and a product of two vectors *)
Section Rank.
  Context (inv : nat -> mat -> res mat) (K : nat) (lam : R) (u v : vec).
  Notation M := (fun j k => (u j * v k + (if j =? k then lam else 0))%R).
  Definition rank_inv : mat :=
    fun j k => (((if j =? k then 1 else 0) - u j * v k / (lam + vdot K v u)) / lam)%R.

  Lemma vsum_delta (f : vec) j : j < K -> vsum K (fun k => ((if j =? k then 1 else 0) * f k)%R) = f j.
  Proof.
    intros H. rewrite <- (vsum_one K j f H). apply vsum_ext. intros k _.
    rewrite (Nat.eqb_sym j k). destruct (k =? j); ring.
  Qed.
  Lemma rank_right (HL : lam <> 0%R) (HU : (lam + vdot K v u)%R <> 0%R) (N : mat) :
    (forall j k, j < K -> k < K -> N j k = M j k) -> is_inverse K N rank_inv.
  Proof.
    intros E i j Hi Hj. unfold rank_inv.
    rewrite (vsum_ext K _ (fun k => ((if i =? k then 1 else 0) * (lam * (((if k =? j then 1 else 0) - u k * v j / (lam + vdot K v u)) / lam))
                                     + (u i / lam * ((if j =? k then 1 else 0) * v k) + (- (u i * v j / (lam * (lam + vdot K v u))) * (v k * u k)))))%R).
    - rewrite vsum_plus, (vsum_delta (fun k => (lam * (((if k =? j then 1 else 0) - u k * v j / (lam + vdot K v u)) / lam))%R) i Hi).
      rewrite vsum_plus, vsum_scale, (vsum_delta v j Hj), vsum_scale.
      change (vsum K (fun k => (v k * u k)%R)) with (vdot K v u). field. split; assumption.
    - intros k Hk. rewrite E by assumption. rewrite (Nat.eqb_sym j k). destruct (i =? k), (k =? j); field; split; assumption.
  Qed.
  Lemma rank_left (HL : lam <> 0%R) (HU : (lam + vdot K v u)%R <> 0%R) (N : mat) :
    (forall j k, j < K -> k < K -> N j k = M j k) -> is_inverse K rank_inv N.
  Proof.
    intros E i j Hi Hj. unfold rank_inv.
    rewrite (vsum_ext K _ (fun k => ((if i =? k then 1 else 0) * ((u k * v j + (if k =? j then lam else 0)) / lam)
                                     + (- (u i * v j / (lam * (lam + vdot K v u))) * (v k * u k) + - (u i / (lam + vdot K v u)) * ((if j =? k then 1 else 0) * v k))))%R).
    - rewrite vsum_plus, (vsum_delta (fun k => ((u k * v j + (if k =? j then lam else 0)) / lam)%R) i Hi).
      rewrite vsum_plus, vsum_scale, vsum_scale, (vsum_delta v j Hj).
      change (vsum K (fun k => (v k * u k)%R)) with (vdot K v u).
      destruct (i =? j); field; split; assumption.
    - intros k Hk. rewrite E by assumption. rewrite (Nat.eqb_sym j k). destruct (i =? k), (k =? j); field; split; assumption.
  Qed.
  Lemma inverse_unique (N L R0 : mat) : is_inverse K L N -> is_inverse K N R0 -> forall i j, i < K -> j < K -> R0 i j = L i j.
  Proof.
    intros HL HR i j Hi Hj.
    transitivity (vsum K (fun k => ((if i =? k then 1 else 0) * R0 k j)%R)).
    { rewrite vsum_delta by exact Hi. reflexivity. }
    transitivity (vsum K (fun k => vsum K (fun l => (L i l * N l k * R0 k j)%R))).
    { apply vsum_ext. intros k Hk. rewrite vsum_scale_r. rewrite (HL i k Hi Hk). reflexivity. }
    rewrite vsum_swap. transitivity (vsum K (fun l => (L i l * (if l =? j then 1 else 0))%R)).
    { apply vsum_ext. intros l Hl. rewrite <- (HR l j Hl Hj), <- vsum_scale. apply vsum_ext. intros k _. ring. }
    rewrite <- (vsum_one K j (fun l => L i l) Hj). apply vsum_ext. intros l _. destruct (l =? j); ring.
  Qed.
  Lemma rank_solves (V : inverts inv K) (HL : lam <> 0%R) (HU : (lam + vdot K v u)%R <> 0%R) (N : mat) (r : vec) :
    (forall j k, j < K -> k < K -> N j k = M j k) ->
    exists I, inv K N = Ok I /\
      forall j, j < K -> vdot K (I j) r = ((r j - u j * vdot K v r / (lam + vdot K v u)) / lam)%R.
  Proof.
    intros E. specialize (V N). destruct (inv K N) as [I|e].
    - exists I. split; [reflexivity|]. intros j Hj.
      rewrite (vdot_ext K (I j) (rank_inv j) r r).
      + unfold vdot at 1. unfold rank_inv.
        rewrite (vsum_ext K _ (fun k => ((if j =? k then 1 else 0) * (r k / lam) + - (u j / (lam * (lam + vdot K v u))) * (v k * r k))%R)).
        * rewrite vsum_plus, (vsum_delta (fun k => (r k / lam)%R) j Hj), vsum_scale.
          change (vsum K (fun k => (v k * r k)%R)) with (vdot K v r). field. split; assumption.
        * intros k _. destruct (j =? k); field; split; assumption.
      + intros k Hk. exact (inverse_unique N rank_inv I (rank_left HL HU N E) V j k Hj Hk).
      + reflexivity.
    - destruct V as [_ V]. destruct (V rank_inv (rank_right HL HU N E)).
  Qed.
End Rank.

Section Offs.
  Context (inv : nat -> mat -> res mat) (K D : nat) (links : list (list nat)) (w0 w1 lam : R) (tops : mat).
  Context (V : inverts inv K) (NS : no_self_links D links).
  Notation linked := (has_link links).

  Lemma offset_ok s p : p < D -> lam <> 0%R ->
    (lam + vsum K (fun k => tops p k * (s * s * pull w0 w1 D linked tops p k)))%R <> 0%R ->
    exists o, offset inv K D links w0 w1 lam tops s p = Ok o
      /\ forall j, j < K -> o j = offset_is w0 w1 lam K D linked tops s p j.
  Proof using V NS.
    intros L HL HU.
    destruct (rank_solves inv K lam (fun j => (s * s * pull w0 w1 D linked tops p j)%R) (tops p) V HL HU
                (offset_matrix D links w0 w1 lam tops s p) (offset_rhs D links w1 tops s p)) as [I [E X]].
    { intros j k _ _. rewrite offset_matrix_is by assumption. ring. }
    unfold offset. rewrite E. cbn [bind]. eexists. split; [reflexivity|]. intros j Hj. cbv beta. rewrite (X j Hj).
    unfold offset_is. rewrite offset_rhs_is. unfold vdot.
    rewrite (vsum_ext K (fun k => (tops p k * offset_rhs D links w1 tops s p k)%R)
               (fun k => (tops p k * (tops p k + s * w1 * fans D linked tops p k))%R)); [reflexivity|].
    intros k _. rewrite offset_rhs_is. reflexivity.
  Qed.
End Offs.
