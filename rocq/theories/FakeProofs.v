(** * Lemmas about the training of stm_yv_bohning_fake_online.py. *)
From Coq Require Import List Reals ZArith Arith Bool Lra Lia Sorted Permutation FunctionalExtensionality.
From Verif Require Import Base RealModel RealProofs VbModel VbProofs LinkModel CtmModel CtmProofs CtmProps StmModel StmProofs StmProps FakeModel.
Import ListNotations.
Open Scope nat_scope.

(** ** Numbers that are not finite *)
Definition nf (x : xr) : Prop := is_fin x = false.
Lemma nf_add_l x y : nf x -> nf (x ⊕ y).
Proof. unfold nf. destruct x, y; cbn; congruence. Qed.
Lemma nf_add_r x y : nf y -> nf (x ⊕ y).
Proof. unfold nf. destruct x, y; cbn; congruence. Qed.
Lemma nf_opp x : nf x -> nf (xopp x).
Proof. unfold nf. destruct x; cbn; congruence. Qed.
Lemma nf_sub_l x y : nf x -> nf (x ⊖ y).
Proof. apply nf_add_l. Qed.
Lemma nf_sign x y : nf y -> nf (xsign x y).
Proof. unfold xsign, nf. destruct (Req_EM_T x 0), (Rlt_dec 0 x); destruct y; cbn; congruence. Qed.
Lemma nf_mul_l x y : nf x -> nf (x ⊗ y).
Proof. unfold nf. destruct x, y; cbn; try congruence; intros; apply nf_sign; reflexivity. Qed.
Lemma nf_mul_r x y : nf y -> nf (x ⊗ y).
Proof. unfold nf. destruct x, y; cbn; try congruence; intros; apply nf_sign; reflexivity. Qed.
Lemma nf_fold l : Exists nf l -> nf (fold_right xadd (Fin 0) l).
Proof. induction 1; cbn [fold_right]; [apply nf_add_l|apply nf_add_r]; assumption. Qed.
Lemma nf_sum n v i : i < n -> nf (v i) -> nf (xsum n v).
Proof.
  intros Hi H. apply nf_fold. apply Exists_exists. exists (v i). split; [|exact H]. apply in_map_iff. exists i. split; [reflexivity|].
  apply in_seq. lia.
Qed.
Lemma zero_dot n v : xsum n (fun k => Fin 0 ⊗ v k) = Fin 0 \/ xsum n (fun k => Fin 0 ⊗ v k) = NaN.
Proof.
  unfold xsum. induction (seq 0 n) as [|i l IH]; [left; reflexivity|]. cbn [map fold_right].
  assert (H : Fin 0 ⊗ v i = Fin 0 \/ Fin 0 ⊗ v i = NaN).
  { destruct (v i); cbn; [left; f_equal; ring| | |right; reflexivity]; unfold xsign; destruct (Req_EM_T 0 0); try contradiction; right; reflexivity. }
  destruct H as [->| ->], IH as [->| ->]; cbn; try (right; reflexivity). left. f_equal. ring.
Qed.
Lemma nf_quot w x : w <> 0%R -> x = Fin 0 \/ x = NaN -> nf (Fin w ⊘ x).
Proof.
  intros Hw [->| ->]; [|reflexivity]. cbn. destruct (Req_EM_T 0 0) as [_|N]; [|contradiction]. apply nf_sign. reflexivity.
Qed.

(** ** Finite numbers *)
Lemma fin_val x : is_fin x = true -> x = Fin (val x).
Proof. destruct x; cbn; congruence. Qed.
Lemma fadd x y a b : x = Fin a -> y = Fin b -> x ⊕ y = Fin (a + b).
Proof. intros -> ->. reflexivity. Qed.
Lemma fsub x y a b : x = Fin a -> y = Fin b -> x ⊖ y = Fin (a - b).
Proof. intros -> ->. reflexivity. Qed.
Lemma fmul x y a b : x = Fin a -> y = Fin b -> x ⊗ y = Fin (a * b).
Proof. intros -> ->. reflexivity. Qed.
Lemma fdiv x y a b : x = Fin a -> y = Fin b -> b <> 0%R -> x ⊘ y = Fin (a / b).
Proof. intros -> -> H. cbn. destruct (Req_EM_T b 0); [contradiction|reflexivity]. Qed.
Lemma fsum n v w : (forall i, i < n -> v i = Fin (w i)) -> xsum n v = Fin (vsum n w).
Proof.
  intros H. unfold xsum, vsum. assert (H' : forall i, In i (seq 0 n) -> v i = Fin (w i)) by (intros i Hi; apply H; apply in_seq in Hi; lia).
  clear H. induction (seq 0 n) as [|i l IH]; [reflexivity|]. cbn [map fold_right rsum]. rewrite (H' i (or_introl eq_refl)), IH; [reflexivity|].
  intros j Hj. apply H'. right. exact Hj.
Qed.
Lemma fsdot n row v h : (forall i, i < n -> v i = Fin (row i * h i)) -> sdot n row v = Fin (vsum n (fun i => row i * h i)%R).
Proof.
  intros H. unfold sdot. apply fsum. intros i Hi. destruct (Req_EM_T (row i) 0) as [E|N]; [rewrite E; f_equal; ring|]. apply H. exact Hi.
Qed.
(** The same when the rest is only finite where something is stored. *)
Lemma fsdot_stored n row v h : (forall i, i < n -> row i <> 0%R -> v i = Fin (row i * h i)) -> sdot n row v = Fin (vsum n (fun i => row i * h i)%R).
Proof.
  intros H. unfold sdot. apply fsum. intros i Hi. destruct (Req_EM_T (row i) 0) as [E|N]; [rewrite E; f_equal; ring|]. apply H; assumption.
Qed.
Lemma fmax n v w : 0 < n -> (forall i, i < n -> v i = Fin (w i)) -> xmax n v = Fin (vmax n w).
Proof.
  intros Hn H. unfold xmax, vmax. destruct n as [|n]; [lia|]. cbn [seq map]. rewrite (H 0) by lia.
  assert (H' : forall i, In i (seq 1 n) -> v i = Fin (w i)) by (intros i Hi; apply H; apply in_seq in Hi; lia).
  clear H. generalize (w 0%nat) as c. induction (seq 1 n) as [|i l IH]; intros c; [reflexivity|]. cbn [map fold_left].
  rewrite (H' i (or_introl eq_refl)). cbn [xmax2]. apply IH. intros j Hj. apply H'. right. exact Hj.
Qed.

(** ** Inverses *)
Lemma xinv_fin inv_of m M : (forall i j, i < m -> j < m -> is_fin (M i j) = true) -> xinv inv_of m M = Ok (lift (inv_of m (fun i j => val (M i j)))).
Proof.
  intros H. unfold xinv. replace (forallb _ _) with true; [reflexivity|]. symmetry. apply forallb_forall. intros i Hi.
  apply forallb_forall. intros j Hj. apply in_seq in Hi, Hj. apply H; lia.
Qed.
Lemma xinv_nf inv_of m M i j : i < m -> j < m -> nf (M i j) -> xinv inv_of m M = Raise ValueError.
Proof.
  intros Hi Hj H. unfold xinv. destruct (forallb _ _) eqn:E; [|reflexivity]. exfalso.
  rewrite forallb_forall in E. specialize (E i ltac:(apply in_seq; lia)). rewrite forallb_forall in E. specialize (E j ltac:(apply in_seq; lia)).
  unfold nf in H. congruence.
Qed.
Lemma xinv_ok inv_of m M N : xinv inv_of m M = Ok N -> N = lift (inv_of m (fun i j => val (M i j))) /\ forall i j, i < m -> j < m -> is_fin (M i j) = true.
Proof.
  unfold xinv. destruct (forallb _ _) eqn:E; [|discriminate]. intros H. inversion H. split; [reflexivity|]. intros i j Hi Hj.
  rewrite forallb_forall in E. specialize (E i ltac:(apply in_seq; lia)). rewrite forallb_forall in E. apply E. apply in_seq. lia.
Qed.
Lemma xinv_raise inv_of m M e : xinv inv_of m M = Raise e -> e = ValueError.
Proof. unfold xinv. destruct (forallb _ _); congruence. Qed.

(** ** Groups of documents of one length *)
Lemma batches_span B start end_ d end_d : In (d, end_d) (batches B start end_) -> end_d - d <= end_ - start /\ start <= d /\ end_d <= end_.
Proof. intros H. apply in_map_iff in H. destruct H as [i [E _]]. inversion E; subst. lia. Qed.
(** One batch suffices for documents of one length, unless there are too many. *)
Lemma batches_one B start end_ : start < end_ -> end_ - start <= B -> batches B start end_ = [(start, end_)].
Proof.
  intros H1 H2. unfold batches. replace ((end_ - start + B - 1) / B) with 1.
  - cbn [seq map]. f_equal. f_equal; lia.
  - apply (Nat.div_unique _ _ 1 (end_ - start - 1)); lia.
Qed.
(** The last document is in the last batch. *)
Lemma batches_last B start end_ : 0 < B -> start < end_ -> exists d before, batches B start end_ = before ++ [(d, end_)] /\ start <= d < end_.
Proof.
  intros HB H. unfold batches. set (m := (end_ - start + B - 1) / B).
  assert (Hm : B * m <= end_ - start + B - 1 < B * S m).
  { split; [apply Nat.mul_div_le; lia|apply Nat.mul_succ_div_gt; lia]. }
  destruct m as [|m]; [lia|]. exists (start + m * B). rewrite seq_S, map_app. cbn [map plus].
  eexists. split; [f_equal; f_equal; f_equal; nia|]. nia.
Qed.

Section groups.
  Variables K D T F P B : nat.
  Variables W X : mat.
  Variable n : vec.
  Variables A vocab : xmat.
  Variable isig : mat.
  Notation isigT := (lift isig).
  Notation batch := (fake_batch K D T F P B W X n A isigT vocab).
  Notation batches_of := (fake_batches K D T F P B W X n A isigT vocab).

  Lemma batch_error l d end_d v e : batch l d end_d v = Raise e -> e = MemoryOOB.
  Proof. unfold fake_batch. destruct (existsb _ _); congruence. Qed.
  Lemma batches_error l todo v e : batches_of l todo v = Raise e -> e = MemoryOOB.
  Proof.
    revert v. induction todo as [|[d end_d] todo IH]; intros v; cbn [fake_batches]; [discriminate|].
    destruct (batch l d end_d v) as [v1|e1] eqn:E; cbn [bind]; [apply IH|]. intros H. inversion H; subst. exact (batch_error _ _ _ _ _ E).
  Qed.
  (** Rows of the buffer behind the largest batch are left alone. *)
  Lemma batch_exp l d end_d v v' r : batch l d end_d v = Ok v' -> end_d - d <= r -> v_exp v' r = v_exp v r.
  Proof.
    unfold fake_batch. destruct (existsb _ _); [discriminate|]. intros H Hr. inversion H; subst; clear H. cbn [v_exp].
    apply functional_extensionality. intros k. unfold put_exp. destruct (Nat.ltb_spec r (end_d - d)); [lia|]. reflexivity.
  Qed.
  Lemma batches_exp l todo v v' r : batches_of l todo v = Ok v' -> (forall d end_d, In (d, end_d) todo -> end_d - d <= r) -> v_exp v' r = v_exp v r.
  Proof.
    revert v. induction todo as [|[d end_d] todo IH]; intros v; cbn [fake_batches]; [congruence|].
    destruct (batch l d end_d v) as [v1|e1] eqn:E; cbn [bind]; [|discriminate]. intros H Hr.
    rewrite (IH v1 H) by (intros; apply Hr; right; assumption). exact (batch_exp _ _ _ _ _ _ E (Hr d end_d (or_introl eq_refl))).
  Qed.
  (** A document whose row of the buffer is zero is divided by zero. *)
  Lemma batch_lost l d end_d v v' r t : batch l d end_d v = Ok v' -> d <= r < end_d -> end_d - d <= r -> 0 < K -> t < T -> W r t <> 0%R ->
    (forall k, k < K -> v_exp v r k = Fin 0) ->
    (forall k, k < K -> nf (v_means v' r k)) /\ (forall k, k < K -> nf (v_cov v' k k)).
  Proof.
    intros H Hr Hs HK Ht Hw Hz. unfold fake_batch in H. destruct (existsb _ _); [discriminate|]. inversion H; subst; clear H. cbn [v_means v_cov].
    match goal with |- (forall k, _ -> nf (if _ then @?m k else _)) /\ _ => assert (M : forall k, k < K -> nf (m k)) end.
    { intros k Hk. apply (nf_sum K _ 0 HK). apply nf_mul_l. apply nf_sub_l, nf_add_l, nf_add_r, nf_mul_r.
      replace (d + (r - d)) with r by lia. unfold sdot. apply (nf_sum T _ t Ht). cbv beta. destruct (Req_EM_T (W r t) 0); [contradiction|].
      apply nf_mul_l. unfold fake_quot. apply nf_quot; [exact Hw|].
      replace (xsum K (fun k0 => put_exp K d (end_d - d) (v_means v) (v_exp v) r k0 ⊗ vocab k0 t)) with (xsum K (fun k => Fin 0 ⊗ vocab k t)); [apply zero_dot|].
      unfold xsum. f_equal. apply map_ext_in. intros k0 Hk0. apply in_seq in Hk0. unfold put_exp. destruct (Nat.ltb_spec r (end_d - d)); [lia|].
      rewrite Hz by lia. reflexivity. }
    assert (C : (d <=? r) && (r <? end_d) = true) by (destruct (Nat.leb_spec d r), (Nat.ltb_spec r end_d); try lia; reflexivity).
    split; intros k Hk.
    - rewrite C. apply M, Hk.
    - apply nf_add_r. unfold fake_cov. apply (nf_sum _ _ (r - d)); [lia|]. apply nf_mul_l, nf_sub_l.
      replace (d + (r - d)) with r by lia. rewrite C. apply M, Hk.
  Qed.
  Lemma batches_app l a b v : batches_of l (a ++ b) v = (do v <- batches_of l a v; batches_of l b v).
  Proof.
    revert v. induction a as [|[d end_d] a IH]; intros v; [reflexivity|]. cbn [app fake_batches].
    destruct (batch l d end_d v); cbn [bind]; [apply IH|reflexivity].
  Qed.
  (** Compiled code reads behind the buffer for documents beyond its size. *)
  Lemma batch_oob l d end_d v r : d <= r < end_d -> B <= r -> has_words T W r = true -> batch l d end_d v = Raise MemoryOOB.
  Proof.
    intros Hr HB Hw. unfold fake_batch. replace (existsb _ _) with true; [reflexivity|]. symmetry. apply existsb_exists.
    exists r. split; [apply in_seq; lia|]. rewrite Hw. destruct (Nat.leb_spec B r); [reflexivity|lia].
  Qed.
  Lemma batch_in_bounds l d end_d v : end_d <= B -> exists v', batch l d end_d v = Ok v'.
  Proof.
    intros H. unfold fake_batch. destruct (existsb _ _) eqn:E; [|eexists; reflexivity]. exfalso.
    apply existsb_exists in E. destruct E as [r [Hin Hr]]. apply in_seq in Hin. apply andb_prop in Hr. destruct Hr as [Hr _].
    apply Nat.leb_le in Hr. lia.
  Qed.

  Variable inv_of : nat -> mat -> mat.
  Notation groups := (fake_groups K D T F P B inv_of W X n A isigT vocab).
  Definition group_inv (nd : Z) : mat := inv_of K (fun i j => val (isigT i j ⊕ Fin (sig_scale D F P * IZR nd * bohning K i j))).
  Lemma group_inv_ok nd : xinv inv_of K (fun i j => isigT i j ⊕ Fin (sig_scale D F P * IZR nd * bohning K i j)) = Ok (lift (group_inv nd)).
  Proof. apply xinv_fin. reflexivity. Qed.
  Lemma groups_cons nd lens start end_ inds v : groups (nd :: lens) (start :: end_ :: inds) v =
    (do v <- batches_of (lift (group_inv nd)) (batches B start end_) v; groups lens (end_ :: inds) v).
  Proof. cbn [fake_groups]. rewrite group_inv_ok. reflexivity. Qed.
  Lemma groups_error lens inds v e : groups lens inds v = Raise e -> e = MemoryOOB.
  Proof.
    revert inds v. induction lens as [|nd lens IH]; intros inds v; [discriminate|]. destruct inds as [|a [|b inds]]; [discriminate|discriminate|].
    rewrite groups_cons. destruct (batches_of _ _ v) as [v1|e1] eqn:E; cbn [bind]; [apply IH|]. intros H. inversion H; subst. exact (batches_error _ _ _ _ E).
  Qed.

  (** The group of the longest documents comes last. *)
  Lemma groups_snoc (fi : Z -> nat) x last : forall lens v, groups (lens ++ [x]) (map fi (lens ++ [x]) ++ [last]) v =
    (do v <- groups lens (map fi (lens ++ [x])) v; batches_of (lift (group_inv x)) (batches B (fi x) last) v).
  Proof.
    induction lens as [|y lens IH]; intros v.
    - cbn [app map]. rewrite groups_cons. cbn [fake_groups bind]. destruct (batches_of _ _ v); reflexivity.
    - cbn [app map]. destruct (map fi (lens ++ [x])) as [|b l] eqn:E; [destruct lens; discriminate|].
      cbn [app]. rewrite !groups_cons. destruct (batches_of _ _ v) as [v1|]; cbn [bind]; [|reflexivity]. apply IH.
  Qed.

  Lemma groups_exp r : forall lens inds v v', groups lens inds v = Ok v' ->
    (forall i, i < length lens -> S i < length inds -> nth (S i) inds 0 - nth i inds 0 <= r) -> v_exp v' r = v_exp v r.
  Proof.
    induction lens as [|nd lens IH]; intros inds v v' H Hr; [inversion H; reflexivity|].
    destruct inds as [|a [|b inds]]; [inversion H; reflexivity|inversion H; reflexivity|].
    rewrite groups_cons in H. destruct (batches_of _ _ v) as [v1|e1] eqn:E; cbn [bind] in H; [|discriminate].
    rewrite (IH _ _ _ H) by (intros i Hi Hi'; apply (Hr (S i)); cbn [length] in *; lia).
    apply (batches_exp _ _ _ _ _ E). intros d end_d Hin. destruct (batches_span _ _ _ _ _ Hin) as [H1 _].
    specialize (Hr 0). cbn [length nth] in Hr. specialize (Hr ltac:(lia) ltac:(lia)). lia.
  Qed.

  Lemma groups_in_bounds lens inds v : (forall i, In i inds -> i <= B) -> exists v', groups lens inds v = Ok v'.
  Proof.
    revert inds v. induction lens as [|nd lens IH]; intros inds v Hi; [eexists; reflexivity|].
    destruct inds as [|a [|b inds]]; [eexists; reflexivity|eexists; reflexivity|]. rewrite groups_cons.
    assert (Q : forall todo v, (forall d e, In (d, e) todo -> e <= B) -> exists v', batches_of (lift (group_inv nd)) todo v = Ok v').
    { induction todo as [|[d e] todo IHt]; intros v0 Ht; [eexists; reflexivity|]. cbn [fake_batches].
      destruct (batch_in_bounds (lift (group_inv nd)) d e v0 (Ht d e (or_introl eq_refl))) as [v1 ->]. cbn [bind]. apply IHt.
      intros d' e' H'. apply (Ht d' e'). right. exact H'. }
    destruct (Q (batches B a b) v) as [v1 ->]; [|cbn [bind]; apply IH; intros i H'; apply Hi; right; exact H'].
    intros d e Hin. destruct (batches_span _ _ _ _ _ Hin) as [_ [_ H]]. specialize (Hi b (or_intror (or_introl eq_refl))). lia.
  Qed.
End groups.

(** ** Lengths in order *)
Lemma unique_last l : l <> [] -> rising l -> exists before x, unique l = before ++ [x] /\ x = nth (length l - 1) l 0%Z.
Proof.
  intros Hl HR. destruct (exists_last (l := unique l)) as [before [x E]].
  { destruct l as [|y l]; [contradiction|]. intros E. assert (In y (unique (y :: l))) as H by (apply unique_in; left; reflexivity). rewrite E in H. exact H. }
  exists before, x. split; [exact E|]. assert (Hx : In x l) by (apply unique_in; rewrite E; apply in_or_app; right; left; reflexivity).
  pose proof (unique_sorted l) as HS. rewrite E in HS.
  assert (Hmax : forall y, In y l -> (y <= x)%Z).
  { intros y Hy. apply unique_in in Hy. rewrite E in Hy. apply in_app_or in Hy. destruct Hy as [Hy|[->|[]]]; [|lia].
    clear - HS Hy. induction before as [|z before IH]; [contradiction|]. cbn [app] in HS. inversion HS as [|? ? H1 H2]; subst.
    destruct Hy as [->|Hy]; [|apply IH; assumption]. rewrite Forall_forall in H2. specialize (H2 x ltac:(apply in_or_app; right; left; reflexivity)). lia. }
  assert (Hlen : 0 < length l) by (destruct l; [contradiction|cbn; lia]).
  pose proof (Hmax (nth (length l - 1) l 0%Z) ltac:(apply nth_In; lia)).
  destruct (In_nth l x 0%Z Hx) as [i [Hi Ei]]. destruct (Nat.eq_dec i (length l - 1)) as [->|N]; [congruence|].
  pose proof (HR i (length l - 1) ltac:(lia) ltac:(lia)). lia.
Qed.

(** ** Finite states *)
Lemma is_add x y : is_fin x = true -> is_fin y = true -> is_fin (x ⊕ y) = true.
Proof. destruct x, y; cbn; congruence. Qed.
Lemma is_sub x y : is_fin x = true -> is_fin y = true -> is_fin (x ⊖ y) = true.
Proof. destruct x, y; cbn; congruence. Qed.
Lemma is_mul x y : is_fin x = true -> is_fin y = true -> is_fin (x ⊗ y) = true.
Proof. destruct x, y; cbn; congruence. Qed.
Lemma is_sum n v : (forall i, i < n -> is_fin (v i) = true) -> is_fin (xsum n v) = true.
Proof. intros H. rewrite (fsum n v (fun i => val (v i))); [reflexivity|]. intros i Hi. apply fin_val, H, Hi. Qed.
Lemma is_sdot n row v : (forall i, i < n -> is_fin (v i) = true) -> is_fin (sdot n row v) = true.
Proof. intros H. apply is_sum. intros i Hi. destruct (Req_EM_T _ _); [reflexivity|apply H, Hi]. Qed.
Lemma is_if (b : bool) x y : is_fin x = true -> is_fin y = true -> is_fin (if b then x else y) = true.
Proof. destruct b; trivial. Qed.
Ltac fin := repeat (first [apply is_sdot; intros ? ? | apply is_sum; intros ? ? | apply is_sub | apply is_add | apply is_mul | apply is_if | reflexivity]);
  try (match goal with H : _ |- _ => apply H; lia end).

Section states.
  Variables K D T F P B : nat.
  Variables beta fv lfv : R.
  Variable inv_of : nat -> mat -> mat.
  Definition finite_state (s : fake) : Prop :=
    (forall k f, k < K -> f < F -> is_fin (f_A s k f) = true) /\ (forall k p, k < K -> p < P -> is_fin (f_Y s k p) = true) /\
    (forall p q, p < P -> q < P -> is_fin (f_RY s p q) = true) /\ (forall p f, p < P -> f < F -> is_fin (f_V s p f) = true) /\
    (forall k t, k < K -> t < T -> is_fin (f_vocab s k t) = true) /\ (forall k t, k < K -> t < T -> is_fin (f_scale s k t) = true) /\
    (forall i j, i < K -> j < K -> is_fin (f_cov s i j) = true) /\ (forall d k, d < D -> k < K -> is_fin (f_means s d k) = true) /\
    (forall d k, d < D -> k < K -> is_fin (f_varcs s d k) = true).

  Variables W X : mat.
  Variable docLens : list Z.
  Notation n := (fun d => IZR (nth d docLens 0%Z)).
  Notation lens := (unique docLens).
  Notation inds := (map (fun x => first_index x docLens) (unique docLens) ++ [D]).
  (** What comes before the batches. *)
  Definition iter_start (s : fake) : batch_vars :=
    {| v_means := f_means s; v_exp := f_exp s; v_scale := fun _ _ => Fin 0; v_cov := fun _ _ => Fin 0 |}.
  Lemma iter_parts s : finite_state s -> exists isig V RY, let Y := fake_Y F P fv (f_A s) V RY in let A := fake_A D F P fv inv_of X Y V (f_means s) in
    isig = inv_of K (fun i j => val (fake_sigT D F P fv lfv s i j)) /\
    (forall i j, i < K -> j < K -> is_fin (fake_sigT D F P fv lfv s i j) = true) /\
    (forall p f, p < P -> f < F -> is_fin (V p f) = true) /\ (forall p q, p < P -> q < P -> is_fin (RY p q) = true) /\
    (forall k p, k < K -> p < P -> is_fin (Y k p) = true) /\ (forall k f, k < K -> f < F -> is_fin (A k f) = true) /\
    fake_iter K D T F P B beta fv lfv inv_of W X docLens s =
    (do v <- fake_groups K D T F P B inv_of W X n A (lift isig) (fake_vocab T beta s) lens inds (iter_start s);
     Ok {| f_A := A; f_Y := Y; f_RY := RY; f_V := V; f_sigT := fake_sigT D F P fv lfv s; f_vocab := fake_vocab T beta s; f_scale := v_scale v;
           f_cov := v_cov v; f_means := v_means v; f_exp := v_exp v; f_varcs := fake_varcs K D F P n (lift isig) |}).
  Proof.
    intros [HA [HY [HRY [HV [Hvo [Hsc [Hco [Hme Hva]]]]]]]].
    assert (Hsig : forall i j, i < K -> j < K -> is_fin (fake_sigT D F P fv lfv s i j) = true) by (intros i j Hi Hj; unfold fake_sigT; cbv zeta; fin).
    set (isig := inv_of K (fun i j => val (fake_sigT D F P fv lfv s i j))).
    set (iV := inv_of P (fun i j => val (fake_lV K D F P (lift isig) s i j))).
    assert (HlV : forall p q, p < P -> q < P -> is_fin (fake_lV K D F P (lift isig) s p q) = true) by (intros p q Hp Hq; unfold fake_lV; fin).
    set (V := fun p f => xsum P (fun q => lift iV p q ⊗ fake_rV K (lift isig) s q f)).
    assert (HV' : forall p f, p < P -> f < F -> is_fin (V p f) = true) by (intros p f Hp Hf; unfold V, fake_rV; fin).
    set (RY := lift (inv_of P (fun i j => val (fake_lY F fv lfv V i j)))).
    assert (HlY : forall p q, p < P -> q < P -> is_fin (fake_lY F fv lfv V p q) = true) by (intros p q Hp Hq; unfold fake_lY; fin).
    assert (HY' : forall k p, k < K -> p < P -> is_fin (fake_Y F P fv (f_A s) V RY k p) = true) by (intros k p Hk Hp; unfold fake_Y; fin).
    exists isig, V, RY. cbv zeta. split; [reflexivity|]. split; [exact Hsig|]. split; [exact HV'|]. split; [reflexivity|]. split; [exact HY'|].
    split; [intros k f Hk Hf; unfold fake_A; fin|].
    unfold fake_iter. cbv zeta. rewrite (xinv_fin inv_of K) by exact Hsig. cbn [bind]. fold isig.
    rewrite (xinv_fin inv_of P) by exact HlV. cbn [bind]. fold iV. change (fun p f => xsum P (fun q => lift iV p q ⊗ fake_rV K (lift isig) s q f)) with V.
    rewrite (xinv_fin inv_of P) by exact HlY. reflexivity.
  Qed.
  (** In any case nothing but these two exceptions. *)
  Lemma iter_error s e : fake_iter K D T F P B beta fv lfv inv_of W X docLens s = Raise e -> e = ValueError \/ e = MemoryOOB.
  Proof.
    unfold fake_iter. intros H.
    destruct (xinv inv_of K (fake_sigT D F P fv lfv s)) as [isigT|] eqn:E1; cbn [bind] in H; [|left; inversion H; subst; exact (xinv_raise _ _ _ _ E1)].
    destruct (xinv inv_of P (fake_lV K D F P isigT s)) as [iV|] eqn:E2; cbn [bind] in H; [|left; inversion H; subst; exact (xinv_raise _ _ _ _ E2)].
    destruct (xinv inv_of P _) as [RY|] eqn:E3 in H; cbn [bind] in H; [|left; inversion H; subst; exact (xinv_raise _ _ _ _ E3)].
    apply xinv_ok in E1. destruct E1 as [-> _]. destruct (fake_groups _ _ _ _ _ _ _ _ _ _ _ _ _ _ _ _) as [v|] eqn:E4 in H; cbn [bind] in H; [discriminate|].
    right. inversion H; subst. eapply groups_error. exact E4.
  Qed.

  (** The end of an iteration that is done. *)
  Lemma iter_done s s' : fake_iter K D T F P B beta fv lfv inv_of W X docLens s = Ok s' -> exists isig A v,
    fake_groups K D T F P B inv_of W X n A (lift isig) (fake_vocab T beta s) lens inds (iter_start s) = Ok v /\
    f_means s' = v_means v /\ f_exp s' = v_exp v /\ f_cov s' = v_cov v.
  Proof.
    unfold fake_iter. intros H.
    destruct (xinv inv_of K (fake_sigT D F P fv lfv s)) as [isigT|] eqn:E1; cbn [bind] in H; [|discriminate].
    destruct (xinv inv_of P (fake_lV K D F P isigT s)) as [iV|] eqn:E2; cbn [bind] in H; [|discriminate].
    destruct (xinv inv_of P _) as [RY|] eqn:E3 in H; cbn [bind] in H; [|discriminate].
    apply xinv_ok in E1. destruct E1 as [-> _]. destruct (fake_groups _ _ _ _ _ _ _ _ _ _ _ _ _ _ _ _) as [v|] eqn:E4 in H; cbn [bind] in H; [|discriminate].
    inversion H; subst; clear H. cbn [f_means f_exp f_cov]. eexists _, _, v. split; [exact E4|]. repeat split.
  Qed.
End states.

(** ** Corpora with documents of different lengths *)
Section different.
  Variables K D T F P B : nat.
  Variables beta fv lfv : R.
  Variable inv_of : nat -> mat -> mat.
  Variables W X : mat.
  Variable docLens : list Z.
  Hypothesis HK : 0 < K.
  Hypothesis HL : length docLens = D.
  Hypothesis HR : rising docLens.
  Hypothesis HC : counts D T W (fun d => IZR (nth d docLens 0%Z)).
  Notation iter := (fake_iter K D T F P B beta fv lfv inv_of W X docLens).

  Lemma has_word d : d < D -> (0 < nth d docLens 0)%Z -> exists t, t < T /\ W d t <> 0%R.
  Proof.
    intros Hd H. destruct HC as [Hw Hn]. specialize (Hn d Hd). apply IZR_lt in H.
    destruct (existsb (fun t => negb (if Req_EM_T (W d t) 0 then true else false)) (seq 0 T)) eqn:E.
    - apply existsb_exists in E. destruct E as [t [Hin Ht]]. apply in_seq in Hin. exists t. split; [lia|].
      destruct (Req_EM_T (W d t) 0); [discriminate|assumption].
    - exfalso. rewrite (vsum_ext T _ (fun _ => 0%R)), vsum_zero in Hn; [lra|]. intros t Ht.
      destruct (Req_EM_T (W d t) 0) as [|N]; [assumption|]. assert (existsb (fun t => negb (if Req_EM_T (W d t) 0 then true else false)) (seq 0 T) = true); [|congruence].
      apply existsb_exists. exists t. split; [apply in_seq; lia|]. destruct (Req_EM_T (W d t) 0); [contradiction|reflexivity].
  Qed.
  Lemma has_words_true d : d < D -> (0 < nth d docLens 0)%Z -> has_words T W d = true.
  Proof.
    intros Hd H. destruct (has_word d Hd H) as [t [Ht Hw]]. apply existsb_exists. exists t. split; [apply in_seq; lia|].
    destruct (Req_EM_T (W d t) 0); [contradiction|reflexivity].
  Qed.

  (** The longest document is lost in an iteration whose buffer starts as zeros. *)
  Lemma iter_lost s s' : D <= B -> (nth 0 docLens 0 < nth (D - 1) docLens 0)%Z -> (forall r k, f_exp s r k = Fin 0) -> iter s = Ok s' ->
    (forall k, k < K -> nf (f_means s' (D - 1) k)) /\ (forall k, k < K -> nf (f_cov s' k k)).
  Proof.
    intros HB Hdiff Hz E. destruct (iter_done _ _ _ _ _ _ _ _ _ _ _ _ _ _ _ E) as [isig [A [v [G [-> [_ ->]]]]]].
    assert (HD : 1 < D). { destruct D as [|[|D']]; [cbn [Nat.sub] in Hdiff; lia|cbn [Nat.sub] in Hdiff; lia|lia]. }
    assert (Hne : docLens <> []) by (destruct docLens; [cbn in HL; lia|discriminate]).
    destruct (unique_last docLens Hne HR) as [before [x [EU Ex]]]. rewrite HL in Ex. rewrite EU in G.
    rewrite groups_snoc in G. destruct (fake_groups _ _ _ _ _ _ _ _ _ _ _ _ _ before _ _) as [v1|] eqn:E1 in G; cbn [bind] in G; [|discriminate].
    assert (Hin : forall y, In y (before ++ [x]) -> first_index y docLens < D).
    { intros y Hy. rewrite <- HL. apply first_index_lt. apply unique_in. rewrite EU. exact Hy. }
    assert (Hx0 : 0 < first_index x docLens).
    { assert (Hxin : In x docLens) by (apply unique_in; rewrite EU; apply in_or_app; right; left; reflexivity).
      destruct (first_index_lt x docLens Hxin) as [_ [Q _]]. destruct (first_index x docLens); [rewrite Q in Hdiff; lia|lia]. }
    assert (HxD := Hin x ltac:(apply in_or_app; right; left; reflexivity)).
    rewrite (batches_one B (first_index x docLens) D HxD ltac:(lia)) in G.
    cbn [fake_batches] in G. destruct (fake_batch _ _ _ _ _ _ _ _ _ _ _ _ _ (first_index x docLens) D v1) as [v2|] eqn:E2 in G; cbn [bind] in G; [|discriminate].
    inversion G; subst v2; clear G.
    assert (Hpos : (0 < nth (D - 1) docLens 0)%Z).
    { enough (0 <= nth 0 docLens 0)%Z by lia. apply le_IZR. destruct HC as [Hw Hn]. rewrite (Hn 0 ltac:(lia)). apply vsum_nonneg. intros; apply Hw; lia. }
    destruct (has_word (D - 1) ltac:(lia) Hpos) as [t [Ht Hwt]].
    eapply batch_lost with (r := D - 1) (t := t); [exact E2|lia|lia|exact HK|exact Ht|exact Hwt|].
    intros k Hk. erewrite groups_exp with (r := D - 1); [|exact E1|]; [apply Hz|].
    intros i Hi Hi'. assert (In (nth (S i) (map (fun x0 => first_index x0 docLens) (before ++ [x])) 0) (map (fun x0 => first_index x0 docLens) (before ++ [x]))) as Q by (apply nth_In; exact Hi').
    apply in_map_iff in Q. destruct Q as [y [<- Hy]]. specialize (Hin y Hy). lia.
  Qed.
  (** After that the covariance cannot be inverted. *)
  Lemma iter_refuses s : nf (f_cov s 0 0) -> iter s = Raise ValueError.
  Proof.
    intros H. unfold fake_iter. rewrite (xinv_nf inv_of K _ 0 0 HK HK); [reflexivity|]. unfold fake_sigT. apply nf_add_l, nf_add_r. exact H.
  Qed.
  (** The buffer is too small for more documents. *)
  Lemma iter_too_many s s' : 0 < B < D -> (0 < nth (D - 1) docLens 0)%Z -> iter s <> Ok s'.
  Proof.
    intros HB Hpos E. destruct (iter_done _ _ _ _ _ _ _ _ _ _ _ _ _ _ _ E) as [isig [A [v [G _]]]].
    assert (Hne : docLens <> []) by (destruct docLens; [cbn in HL; lia|discriminate]).
    destruct (unique_last docLens Hne HR) as [before [x [EU Ex]]]. rewrite EU in G.
    rewrite groups_snoc in G. destruct (fake_groups _ _ _ _ _ _ _ _ _ _ _ _ _ before _ _) as [v1|] eqn:E1 in G; cbn [bind] in G; [|discriminate].
    assert (HxD : first_index x docLens < D). { rewrite <- HL. apply first_index_lt. apply unique_in. rewrite EU. apply in_or_app; right; left; reflexivity. }
    destruct (batches_last B (first_index x docLens) D ltac:(lia) HxD) as [d [l0 [EB Hd]]]. rewrite EB, batches_app in G.
    destruct (fake_batches _ _ _ _ _ _ _ _ _ _ _ _ _ l0 _) as [v2|] eqn:E2 in G; cbn [bind] in G; [|discriminate].
    cbn [fake_batches] in G. erewrite batch_oob with (r := D - 1) in G; [discriminate|lia|lia|].
    apply has_words_true; [lia|exact Hpos].
  Qed.
  Lemma iter_reads_outside s : finite_state K D T F P s -> 0 < B < D -> (0 < nth (D - 1) docLens 0)%Z -> iter s = Raise MemoryOOB.
  Proof.
    intros Hf HB Hpos. destruct (iter s) as [s'|e] eqn:E; [exfalso; exact (iter_too_many s s' HB Hpos E)|].
    destruct (iter_parts K D T F P B beta fv lfv inv_of W X docLens s Hf) as [isig [V [RY Q]]]. cbv zeta in Q. destruct Q as [_ [_ [_ [_ [_ [_ Q]]]]]].
    rewrite E in Q. destruct (fake_groups _ _ _ _ _ _ _ _ _ _ _ _ _ _ _ _) as [v|e'] eqn:G in Q; cbn [bind] in Q; [discriminate|].
    inversion Q; subst. f_equal. eapply groups_error. exact G.
  Qed.
  (** Otherwise an iteration from finite numbers is done. *)
  Lemma iter_finishes s : finite_state K D T F P s -> D <= B -> exists s', iter s = Ok s'.
  Proof.
    intros Hf HB. destruct (iter_parts K D T F P B beta fv lfv inv_of W X docLens s Hf) as [isig [V [RY Q]]]. cbv zeta in Q. destruct Q as [_ [_ [_ [_ [_ [_ Q]]]]]].
    rewrite Q. match goal with |- context [bind ?g _] => assert (G : exists v, g = Ok v) end;
      [apply groups_in_bounds|destruct G as [v ->]; eexists; reflexivity].
    intros i Hi. apply in_app_or in Hi. destruct Hi as [Hi|[<-|[]]]; [|exact HB]. apply in_map_iff in Hi. destruct Hi as [x [<- Hx]].
    apply (proj1 (unique_in docLens x)) in Hx. apply first_index_lt in Hx. lia.
  Qed.
End different.

(** ** Corpora of documents of one length *)
Lemma unique_repeat x m : unique (repeat x (S m)) = [x].
Proof.
  induction m as [|m IH]; [reflexivity|]. change (repeat x (S (S m))) with (x :: repeat x (S m)). unfold unique in *. cbn [fold_right].
  rewrite IH. cbn [insert_unique]. rewrite Z.ltb_irrefl, Z.eqb_refl. reflexivity.
Qed.
Section one_length.
  Variables K D T F P B : nat.
  Variables beta fv lfv : R.
  Variable inv_of : nat -> mat -> mat.
  Variables W X : mat.
  Variable len : Z.
  Hypothesis HK : 0 < K.
  Hypothesis HT : 0 < T.
  Hypothesis HD : 0 < D.
  Hypothesis HB : D <= B.
  Hypothesis Hb : (0 < beta)%R.
  Hypothesis Hfv : (0 < fv)%R.
  Hypothesis Hlfv : (0 < lfv)%R.
  Hypothesis HI : inverts K (inv_of K).
  Notation docLens := (repeat len D).
  Notation n := (fun d => IZR (nth d docLens 0%Z)).
  Hypothesis HC : counts D T W n.
  Notation iter := (fake_iter K D T F P B beta fv lfv inv_of W X docLens).
  Notation vm M := (fun i j => val (M i j)).

  (** A state that can be trained further. *)
  Definition trainable (s : fake) : Prop :=
    finite_state K D T F P s /\ (forall d k, d < D -> k < K -> (0 < val (f_varcs s d k))%R) /\
    symm K (vm (f_cov s)) /\ psd K (vm (f_cov s)) /\
    (forall k t, k < K -> t < T -> (0 <= val (f_vocab s k t))%R) /\ (forall k t, k < K -> t < T -> (0 <= val (f_scale s k t))%R).

  (** The covariance. *)
  Definition real_sigT (s : fake) : mat := fun i j =>
    let diffa := fun k f => (val (f_A s k f) - vsum P (fun p => val (f_Y s k p) * val (f_V s p f)))%R in
    (1 / lfv * vsum P (fun p => val (f_Y s i p) * val (f_Y s j p)) + 1 / fv * vsum F (fun f => diffa i f * diffa j f)
     + val (f_cov s i j) + (if i =? j then vsum D (fun d => val (f_varcs s d i)) else 0))%R.
  Lemma sigT_real s i j : finite_state K D T F P s -> i < K -> j < K -> fake_sigT D F P fv lfv s i j = Fin (real_sigT s i j).
  Proof.
    intros [HA [HY [HRY [HV [Hvo [Hsc [Hco [Hme Hva]]]]]]]] Hi Hj. unfold fake_sigT, real_sigT. cbv zeta. repeat apply fadd.
    - apply fmul; [reflexivity|]. apply fsum. intros p Hp. apply fmul; apply fin_val, HY; assumption.
    - apply fmul; [reflexivity|]. apply fsum. intros f Hf.
      apply fmul; (apply fsub; [apply fin_val, HA; assumption|]; apply fsum; intros p Hp; apply fmul; apply fin_val; [apply HY|apply HV]; assumption).
    - apply fin_val, Hco; assumption.
    - destruct (i =? j); [|reflexivity]. apply fsum. intros d Hd. apply fin_val, Hva; assumption.
  Qed.
  Lemma real_sigT_symm s : trainable s -> symm K (real_sigT s).
  Proof.
    intros [_ [_ [HS _]]] i j Hi Hj. unfold real_sigT. cbv zeta. rewrite (HS i j Hi Hj), (Nat.eqb_sym j i). f_equal; [f_equal; f_equal; f_equal|].
    - apply vsum_ext. intros; ring.
    - apply vsum_ext. intros; ring.
    - destruct (Nat.eqb_spec i j) as [->|]; reflexivity.
  Qed.
  Lemma real_sigT_posdef s : trainable s -> posdef K (real_sigT s).
  Proof.
    intros [_ [HV [_ [HP _]]]] x [k [Hk Hx]]. unfold real_sigT. cbv zeta.
    set (Y := vm (f_Y s)). set (diffa := fun k f => (val (f_A s k f) - vsum P (fun p => val (f_Y s k p) * val (f_V s p f)))%R).
    rewrite (quad_sum K (fun i j => 1 / lfv * vsum P (fun p => Y i p * Y j p) + 1 / fv * vsum F (fun f => diffa i f * diffa j f) + val (f_cov s i j))%R
                      (fun i j => if i =? j then vsum D (fun d => val (f_varcs s d i)) else 0)%R).
    rewrite (quad_sum K (fun i j => 1 / lfv * vsum P (fun p => Y i p * Y j p) + 1 / fv * vsum F (fun f => diffa i f * diffa j f))%R (vm (f_cov s))).
    rewrite (quad_sum K (fun i j => 1 / lfv * vsum P (fun p => Y i p * Y j p))%R (fun i j => 1 / fv * vsum F (fun f => diffa i f * diffa j f))%R).
    rewrite (quad_scale K (fun i j => vsum P (fun p => Y i p * Y j p))%R), (quad_scale K (fun i j => vsum F (fun f => diffa i f * diffa j f))%R).
    rewrite (quad_gram K P Y), (quad_gram K F diffa), quad_diag.
    assert (S : forall m (g : vec), (0 <= vsum m (fun p => g p * g p))%R) by (intros m g; apply vsum_nonneg; intros; apply Rle_0_sqr).
    pose proof (S P (fun p => vsum K (fun i => x i * Y i p))%R) as S1. pose proof (S F (fun p => vsum K (fun i => x i * diffa i p))%R) as S2. cbv beta in S1, S2.
    pose proof (HP x) as S3.
    assert (S4 : (0 < vsum K (fun i => vsum D (fun d => val (f_varcs s d i)) * (x i * x i)))%R).
    { apply (vsum_pos_one K _ k Hk).
      - intros j Hj. apply Rmult_le_pos; [apply vsum_nonneg; intros d Hd; left; apply HV; assumption|apply Rle_0_sqr].
      - apply Rmult_lt_0_compat; [apply vsum_pos; [exact HD|]; intros d Hd; apply HV; assumption|].
        assert (0 <= x k * x k)%R by apply Rle_0_sqr. assert (x k * x k <> 0)%R by (apply Rmult_integral_contrapositive; split; exact Hx). lra. }
    assert (Q1 : (0 < 1 / lfv)%R) by (apply Rdiv_lt_0_compat; lra). assert (Q2 : (0 < 1 / fv)%R) by (apply Rdiv_lt_0_compat; lra).
    pose proof (Rmult_le_pos _ _ (Rlt_le _ _ Q1) S1). pose proof (Rmult_le_pos _ _ (Rlt_le _ _ Q2) S2). lra.
  Qed.

  (** The vocabulary. *)
  Definition real_vocab (s : fake) : mat := norm_rows T (fun k t => val (f_vocab s k t) * val (f_scale s k t) + beta)%R.
  Lemma vocab_real s : trainable s -> (forall k t, k < K -> t < T -> fake_vocab T beta s k t = Fin (real_vocab s k t)) /\
    (forall k, k < K -> positive_dist T (real_vocab s k)).
  Proof.
    intros [[_ [_ [_ [_ [Hvo [Hsc _]]]]]] [_ [_ [_ [HV0 HS0]]]]].
    assert (Hp : forall k t, k < K -> t < T -> (0 < val (f_vocab s k t) * val (f_scale s k t) + beta)%R).
    { intros k t Hk Ht. pose proof (Rmult_le_pos _ _ (HV0 k t Hk Ht) (HS0 k t Hk Ht)). lra. }
    assert (Hsum : forall k, k < K -> (0 < vsum T (fun u => val (f_vocab s k u) * val (f_scale s k u) + beta))%R).
    { intros k Hk. apply vsum_pos; [exact HT|]. intros; apply Hp; assumption. }
    split.
    - intros k t Hk Ht. unfold fake_vocab, real_vocab, norm_rows. apply fdiv.
      + apply fadd; [|reflexivity]. apply fmul; apply fin_val; [apply Hvo|apply Hsc]; assumption.
      + apply fsum. intros u Hu. apply fadd; [|reflexivity]. apply fmul; apply fin_val; [apply Hvo|apply Hsc]; assumption.
      + specialize (Hsum k Hk). lra.
    - intros k Hk. unfold real_vocab, norm_rows. specialize (Hsum k Hk). split; [intros t Ht; apply Rdiv_lt_0_compat; [apply Hp; assumption|assumption]|].
      unfold Rdiv. rewrite vsum_scale_r. apply Rinv_r. lra.
  Qed.

  (** One iteration. *)
  Record real_iter (s s' : fake) : Prop := {
    ri_trainable : trainable s';
    ri_sigT : forall i j, i < K -> j < K -> f_sigT s' i j = Fin (real_sigT s i j);
    ri_vocab : forall k t, k < K -> t < T -> f_vocab s' k t = Fin (real_vocab s k t);
    ri_means : forall d k, d < D -> k < K -> f_means s' d k =
      let isig := inv_of K (vm (f_sigT s')) in
      let r := stm_rhs K D F P X (vm (f_A s')) isig (token_weights K T W (exp_means K (vm (f_means s))) (vm (f_vocab s'))) n (vm (f_means s)) in
      Fin (vsum K (fun j => r d j * (inv_of K (fun i j => isig i j + sig_scale D F P * IZR len * bohning K i j) j k * sig_scale D F P)))%R;
    ri_exp : forall d k, d < D -> k < K -> f_exp s' d k = Fin (exp_means K (vm (f_means s')) d k);
    ri_scale : forall k t, k < K -> t < T -> f_scale s' k t =
      Fin (vsum D (fun d => quotient K W (exp_means K (vm (f_means s'))) (vm (f_vocab s')) d t * exp_means K (vm (f_means s')) d k))%R }.

  Lemma exp_row m M (d : nat) k : k < K -> (forall j, j < K -> m d j = Fin (M d j)) -> xexp (m d k ⊖ xmax K (m d)) = Fin (exp_means K M d k).
  Proof.
    intros Hk H. rewrite (fmax K (m d) (M d) HK) by exact H. rewrite (H k Hk). reflexivity.
  Qed.
  Lemma exp_means_ext M M' d k : (forall j, j < K -> M d j = M' d j) -> k < K -> exp_means K M d k = exp_means K M' d k.
  Proof.
    intros H Hk. unfold exp_means. rewrite (H k Hk). f_equal. f_equal. unfold vmax.
    replace (map (M d) (seq 0 K)) with (map (M' d) (seq 0 K)); [reflexivity|]. apply map_ext_in. intros j Hj. apply in_seq in Hj. symmetry. apply H. lia.
  Qed.
  Lemma fsdot_if m row v g : (forall i, i < m -> v i = Fin (g i)) -> (forall i, i < m -> row i = 0%R -> g i = 0%R) -> sdot m row v = Fin (vsum m g).
  Proof.
    intros H H0. unfold sdot. apply fsum. intros i Hi. destruct (Req_EM_T (row i) 0) as [E|N]; [rewrite (H0 i Hi E); reflexivity|]. apply H. exact Hi.
  Qed.

  Lemma iter_real s : trainable s -> exists s', iter s = Ok s' /\ real_iter s s'.
  Proof.
    intros Htr. pose proof Htr as [Hfin [Hvar [Hcs [Hcp [Hv0 Hs0]]]]].
    destruct (iter_parts K D T F P B beta fv lfv inv_of W X docLens s Hfin) as [isig [V [RY Q]]]. cbv zeta in Q.
    set (Y := fake_Y F P fv (f_A s) V RY) in *. set (A := fake_A D F P fv inv_of X Y V (f_means s)) in *.
    destruct Q as [Eisig [Hsig [HV [HRY [HY [HA Q]]]]]].
    destruct (vocab_real s Htr) as [Hvoc Hdist]. set (voc := fake_vocab T beta s) in *.
    assert (Hv : forall k t, k < K -> t < T -> voc k t = Fin (val (voc k t))) by (intros k t Hk Ht; rewrite (Hvoc k t Hk Ht); reflexivity).
    assert (Hvp : forall k t, k < K -> t < T -> (0 < val (voc k t))%R) by (intros k t Hk Ht; rewrite (Hvoc k t Hk Ht); apply (Hdist k Hk); exact Ht).
    set (M := vm (f_means s)). assert (HM : forall d k, d < D -> k < K -> f_means s d k = Fin (M d k)) by (intros d k Hd Hk; apply fin_val; apply Hfin; assumption).
    (* the single batch *)
    assert (G : fake_groups K D T F P B inv_of W X n A (lift isig) voc (unique docLens) (map (fun x => first_index x docLens) (unique docLens) ++ [D]) (iter_start s)
                = fake_batch K D T F P B W X n A (lift isig) voc (lift (group_inv K D F P isig inv_of len)) 0 D (iter_start s)).
    { assert (EU : unique docLens = [len]) by (destruct D as [|D']; [lia|apply unique_repeat]). rewrite EU. cbn [map app].
      assert (EF : first_index len docLens = 0) by (destruct D as [|D']; [lia|]; cbn [repeat first_index]; rewrite Z.eqb_refl; reflexivity).
      rewrite EF, groups_cons, (batches_one B 0 D HD ltac:(lia)). cbn [fake_batches]. destruct (fake_batch _ _ _ _ _ _ _ _ _ _ _ _ _ _ _ _); reflexivity. }
    rewrite G in Q. clear G. unfold fake_batch in Q. rewrite Nat.sub_0_r in Q.
    match type of Q with context [existsb ?f ?l] => replace (existsb f l) with false in Q end.
    2:{ symmetry. destruct (existsb _ _) eqn:E; [|reflexivity]. apply existsb_exists in E. destruct E as [r [Hr E]]. apply in_seq in Hr.
        apply andb_prop in E. destruct E as [E _]. apply Nat.leb_le in E. lia. }
    cbn [bind v_means v_exp v_scale v_cov iter_start] in Q. rewrite Q. eexists. split; [reflexivity|]. clear Q.
    set (e := put_exp K 0 D (f_means s) (f_exp s)).
    assert (He : forall i k, i < D -> k < K -> e i k = Fin (exp_means K M i k)).
    { intros i k Hi Hk. unfold e, put_exp. destruct (Nat.ltb_spec i D); [|lia]. apply exp_row; [exact Hk|]. intros j Hj. apply HM; assumption. }
    assert (Hdot : forall E i t, i < D -> t < T -> (0 < vsum K (fun k => exp_means K E i k * val (voc k t)))%R).
    { intros E i t Hi Ht. apply vsum_pos; [exact HK|]. intros k Hk. apply Rmult_lt_0_compat; [apply exp_pos|apply Hvp; assumption]. }
    assert (Hq : forall x E r i t, i < D -> t < T -> (forall k, k < K -> x r k = Fin (exp_means K E i k)) -> fake_quot K W x voc i r t = Fin (quotient K W (exp_means K E) (vm voc) i t)).
    { intros x E r i t Hi Ht Hx. unfold fake_quot, quotient. apply fdiv; [reflexivity| |specialize (Hdot E i t Hi Ht); lra].
      apply fsum. intros k Hk. apply fmul; [apply Hx, Hk|apply Hv; assumption]. }
    set (S := fun i k => e i k ⊗ sdot T (W (0 + i)) (fun t => fake_quot K W e voc (0 + i) (0 + i) t ⊗ voc k t)).
    assert (HS : forall i k, i < D -> k < K -> S i k = Fin (token_weights K T W (exp_means K M) (vm voc) i k)).
    { intros i k Hi Hk. unfold S, token_weights. cbn [plus]. apply fmul; [apply He; assumption|]. apply fsdot_if.
      - intros t Ht. apply fmul; [apply Hq; [assumption|assumption|intros; apply He; assumption]|apply Hv; assumption].
      - intros t Ht E0. unfold quotient. rewrite E0. unfold Rdiv. ring. }
    set (soft := fun i k => if i <? D then e i k ⊘ xsum K (e i) else e i k).
    assert (Hsoft : forall i k, i < D -> k < K -> soft i k = Fin (vsoftmax K (M i) k)).
    { intros i k Hi Hk. unfold soft. destruct (Nat.ltb_spec i D); [|lia]. unfold vsoftmax. apply fdiv; [apply He; assumption| |].
      - apply fsum. intros j Hj. rewrite (He i j Hi Hj). reflexivity.
      - apply Rgt_not_eq. apply vsum_pos; [exact HK|]. intros; apply exp_pos. }
    set (mu := fake_mu F (fun i => X (0 + i)) A).
    assert (Hmu : forall i k, i < D -> k < K -> mu i k = Fin (vsum F (fun f => X i f * val (A k f)))%R).
    { intros i k Hi Hk. unfold mu, fake_mu. cbn [plus]. apply fsdot. intros f Hf. apply fmul; [reflexivity|apply fin_val, HA; assumption]. }
    set (rhs := fun i k => (xsum K (fun j => mu i j ⊗ lift isig j k) ⊗ Fin (isig_scale D F P)) ⊕ S i k
                          ⊕ (Fin (IZR (nth (0 + i) docLens 0%Z)) ⊗ xsum K (fun j => f_means s (0 + i) j ⊗ Fin (bohning K j k)))
                          ⊖ (Fin (IZR (nth (0 + i) docLens 0%Z)) ⊗ soft i k)).
    set (r := stm_rhs K D F P X (vm A) isig (token_weights K T W (exp_means K M) (vm voc)) n M).
    assert (Hr : forall i k, i < D -> k < K -> rhs i k = Fin (r i k)).
    { intros i k Hi Hk. unfold rhs, r, stm_rhs. cbn [plus]. apply fsub; [apply fadd; [apply fadd|]|].
      - apply fmul; [|reflexivity]. apply fsum. intros j Hj. apply fmul; [apply Hmu; assumption|reflexivity].
      - apply HS; assumption.
      - apply fmul; [reflexivity|]. apply fsum. intros j Hj. apply fmul; [apply HM; assumption|reflexivity].
      - apply fmul; [reflexivity|]. apply Hsoft; assumption. }
    set (g := group_inv K D F P isig inv_of len).
    set (means' := fun r k => if (0 <=? r) && (r <? D) then xsum K (fun j => rhs (r - 0) j ⊗ (lift g j k ⊗ Fin (sig_scale D F P))) else f_means s r k).
    assert (Hm' : forall d k, d < D -> k < K -> means' d k = Fin (vsum K (fun j => r d j * (g j k * sig_scale D F P)))%R).
    { intros d k Hd Hk. unfold means'. destruct (Nat.ltb_spec d D); [|lia]. cbn [Nat.leb andb]. rewrite Nat.sub_0_r. apply fsum. intros j Hj.
      apply fmul; [apply Hr; assumption|reflexivity]. }
    assert (Hm1 : forall d k, d < D -> k < K -> means' d k = Fin (vm means' d k)) by (intros d k Hd Hk; rewrite (Hm' d k Hd Hk); reflexivity).
    set (e' := put_exp K 0 D means' soft).
    assert (He' : forall i k, i < D -> k < K -> e' i k = Fin (exp_means K (vm means') i k)).
    { intros i k Hi Hk. unfold e', put_exp. destruct (Nat.ltb_spec i D); [|lia]. apply exp_row; [exact Hk|]. intros j Hj. apply Hm1; assumption. }
    assert (Hsc' : forall k t, k < K -> t < T -> Fin 0 ⊕ sdot D (fun i => W (0 + i) t) (fun i => fake_quot K W e' voc (0 + i) i t ⊗ e' i k) =
      Fin (vsum D (fun d => quotient K W (exp_means K (vm means')) (vm voc) d t * exp_means K (vm means') d k))%R).
    { intros k t Hk Ht. rewrite <- (Rplus_0_l (vsum D _)). apply fadd; [reflexivity|]. cbn [plus]. apply fsdot_if.
      - intros i Hi. apply fmul; [apply Hq; [assumption|assumption|intros; apply He'; assumption]|apply He'; assumption].
      - intros i Hi E0. unfold quotient. rewrite E0. unfold Rdiv. ring. }
    set (delta := fun k d => (val (means' d k) - vsum F (fun f => X d f * val (A k f)))%R).
    assert (Hcov' : forall i j, i < K -> j < K -> Fin 0 ⊕ fake_cov D (fun r => means' (0 + r)) mu i j = Fin (vsum D (fun d => delta i d * delta j d))%R).
    { intros i j Hi Hj. rewrite <- (Rplus_0_l (vsum D _)). apply fadd; [reflexivity|]. unfold fake_cov. cbn [plus]. apply fsum. intros d Hd. unfold delta.
      apply fmul; (apply fsub; [apply Hm1; assumption|apply Hmu; assumption]). }
    (* the inverse of the covariance *)
    assert (HsR : forall i j, i < K -> j < K -> val (fake_sigT D F P fv lfv s i j) = real_sigT s i j) by (intros i j Hi Hj; rewrite (sigT_real s i j Hfin Hi Hj); reflexivity).
    assert (HsS : symm K (vm (fake_sigT D F P fv lfv s))) by (intros i j Hi Hj; rewrite !HsR by assumption; apply real_sigT_symm; assumption).
    assert (HsP : posdef K (vm (fake_sigT D F P fv lfv s))).
    { intros x Hx. rewrite (quad_ext K (vm (fake_sigT D F P fv lfv s)) (real_sigT s) x x x x) by (try exact HsR; reflexivity). apply real_sigT_posdef; assumption. }
    destruct (HI _ HsS HsP) as [R1 L1]. rewrite <- Eisig in R1, L1.
    pose proof (inverse_posdef K _ _ HsP R1 L1) as HiP.
    assert (Hn : forall d, d < D -> (0 <= IZR (nth d docLens 0%Z))%R). { intros d Hd. destruct HC as [HW Hn]. rewrite (Hn d Hd). apply vsum_nonneg. intros; apply HW; assumption. }
    assert (Hsp : (0 < sig_scale D F P)%R). { unfold sig_scale. apply Rdiv_lt_0_compat; [lra|]. pose proof (pos_INR P). pose proof (pos_INR F). pose proof (lt_INR 0 D HD) as HD'. cbn [INR] in HD'. lra. }
    assert (Hva' : forall d k, d < D -> k < K -> fake_varcs K D F P n (lift isig) d k = Fin (1 / (IZR (nth d docLens 0%Z) * (INR K - 1) / INR K + isig_scale D F P * isig k k)) /\
      (0 < 1 / (IZR (nth d docLens 0%Z) * (INR K - 1) / INR K + isig_scale D F P * isig k k))%R).
    { intros d k Hd Hk. assert (Hden : (0 < IZR (nth d docLens 0%Z) * (INR K - 1) / INR K + isig_scale D F P * isig k k)%R).
      { pose proof (diag_pos K isig k HiP Hk) as Hp. specialize (Hn d Hd).
        assert (Hip : (0 < isig_scale D F P)%R) by (apply Rdiv_lt_0_compat; lra). pose proof (Rmult_lt_0_compat _ _ Hip Hp).
        assert (HK1 : (1 <= INR K)%R) by (apply (le_INR 1); lia). assert (0 <= IZR (nth d docLens 0%Z) * (INR K - 1) / INR K)%R; [|lra].
        apply Rmult_le_pos; [apply Rmult_le_pos; lra|]. left. apply Rinv_0_lt_compat. lra. }
      split; [|apply Rdiv_lt_0_compat; lra]. unfold fake_varcs. apply fdiv; [reflexivity| |lra]. apply fadd; [reflexivity|]. apply fmul; reflexivity. }
    split.
    - split; [|split; [|split; [|split; [|split]]]]; cbn [f_A f_Y f_RY f_V f_vocab f_scale f_cov f_means f_varcs].
      + repeat split; cbn [f_A f_Y f_RY f_V f_vocab f_scale f_cov f_means f_varcs]; try assumption.
        * intros k t Hk Ht. rewrite (Hv k t Hk Ht). reflexivity.
        * intros k t Hk Ht. exact (f_equal is_fin (Hsc' k t Hk Ht)).
        * intros i j Hi Hj. exact (f_equal is_fin (Hcov' i j Hi Hj)).
        * intros d k Hd Hk. exact (f_equal is_fin (Hm' d k Hd Hk)).
        * intros d k Hd Hk. exact (f_equal is_fin (proj1 (Hva' d k Hd Hk))).
      + intros d k Hd Hk. destruct (Hva' d k Hd Hk) as [-> Hp]. exact Hp.
      + intros i j Hi Hj. etransitivity; [exact (f_equal val (Hcov' i j Hi Hj))|]. etransitivity; [|symmetry; exact (f_equal val (Hcov' j i Hj Hi))].
        cbn [val]. apply vsum_ext. intros; ring.
      + intros x. rewrite (quad_ext K _ (fun i j => vsum D (fun d => delta i d * delta j d))%R x x x x); [|intros i j Hi Hj; exact (f_equal val (Hcov' i j Hi Hj))|reflexivity|reflexivity].
        rewrite (quad_gram K D delta). apply vsum_nonneg. intros; apply Rle_0_sqr.
      + intros k t Hk Ht. left. apply Hvp; assumption.
      + intros k t Hk Ht. eapply Rle_trans; [|right; symmetry; exact (f_equal val (Hsc' k t Hk Ht))]. cbn [val]. apply vsum_nonneg. intros d Hd. apply Rmult_le_pos; [|left; apply exp_pos].
        unfold quotient. destruct HC as [HW _]. apply Rmult_le_pos; [apply HW; assumption|]. left. apply Rinv_0_lt_compat. apply Hdot; assumption.
    - intros i j Hi Hj. cbn [f_sigT]. apply sigT_real; assumption.
    - intros k t Hk Ht. cbn [f_vocab]. apply Hvoc; assumption.
    - intros d k Hd Hk. cbn [f_means f_sigT f_A f_vocab]. cbv zeta. rewrite <- Eisig. exact (Hm' d k Hd Hk).
    - intros d k Hd Hk. cbn [f_exp f_means]. apply He'; assumption.
    - intros k t Hk Ht. cbn [f_scale f_means f_vocab]. exact (Hsc' k t Hk Ht).
  Qed.
End one_length.
