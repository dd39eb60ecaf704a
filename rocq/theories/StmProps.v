(** * Properties of the training of the side topic model: C61, C136, and C64 for it. *)
From Coq Require Import List Reals ZArith Arith Bool Lra Lia Permutation FunctionalExtensionality.
From Verif Require Import Base RealModel RealProofs VbModel VbProofs LinkModel CtmModel CtmProofs CtmProps StmModel StmProofs.
Import ListNotations.
Open Scope nat_scope.

(** ** C61: the order of the rows *)
Lemma sorts_inverse D idx back : Permutation idx (seq 0 D) -> sorts (map Z.of_nat idx) back ->
  Permutation back (seq 0 D) /\ forall d, d < D -> nth (nth d back 0) idx 0 = d.
Proof.
  intros HP [HB HS]. assert (L : length idx = D) by (rewrite (Permutation_length HP); apply seq_length).
  rewrite map_length, L in HB. split; [exact HB|]. rewrite map_length, L in HS.
  assert (LB : length back = D) by (rewrite (Permutation_length HB); apply seq_length).
  assert (N : forall d, d < D -> nth (nth d back 0) (map Z.of_nat idx) 0%Z = Z.of_nat (nth (nth d back 0) idx 0)).
  { intros d Hd. exact (map_nth Z.of_nat idx 0 (nth d back 0)). }
  (* the composition is a rising rearrangement of 0, 1, ... *)
  set (g := fun d => nth (nth d back 0) idx 0).
  assert (G : forall i j, i < j -> j < D -> g i < g j).
  { intros i j Hij Hj. pose proof (HS i j Hij Hj) as H. rewrite !N in H by lia. fold (g i) (g j) in H.
    assert (g i <> g j); [|lia]. intros E. unfold g in E.
    assert (ND : NoDup idx) by (apply (Permutation_NoDup (Permutation_sym HP)), seq_NoDup).
    assert (NB : NoDup back) by (apply (Permutation_NoDup (Permutation_sym HB)), seq_NoDup).
    rewrite NoDup_nth in ND. apply ND in E; [|rewrite L; apply perm_lt; [exact HB|lia]|rewrite L; apply perm_lt; [exact HB|lia]].
    rewrite NoDup_nth in NB. apply NB in E; lia. }
  assert (Lo : forall d, d < D -> d <= g d).
  { induction d as [|d IH]; intros Hd; [lia|]. pose proof (G d (S d) ltac:(lia) Hd). pose proof (IH ltac:(lia)). lia. }
  assert (Hi : forall e d, d + e < D -> g d + e <= g (d + e)).
  { induction e as [|e IH]; intros d Hd; [rewrite !Nat.add_0_r; lia|]. pose proof (IH d ltac:(lia)).
    pose proof (G (d + e) (d + S e) ltac:(lia) ltac:(lia)). lia. }
  intros d Hd. fold (g d). pose proof (Lo d Hd). pose proof (Hi (D - 1 - d) d ltac:(lia)).
  assert (g (d + (D - 1 - d)) < D); [|lia]. unfold g. apply perm_lt; [exact HP|]. apply perm_lt; [exact HB|lia].
Qed.

Lemma sorts_inverse' D idx back : Permutation idx (seq 0 D) -> sorts (map Z.of_nat idx) back ->
  forall i, i < D -> nth (nth i idx 0) back 0 = i.
Proof.
  intros HP HB i Hi. destruct (sorts_inverse D idx back HP HB) as [HPB HI].
  pose proof (perm_lt D idx i HP Hi) as Hx. pose proof (HI _ Hx) as E.
  assert (ND : NoDup idx) by (apply (Permutation_NoDup (Permutation_sym HP)), seq_NoDup).
  assert (L : length idx = D) by (rewrite (Permutation_length HP); apply seq_length).
  rewrite NoDup_nth in ND. apply ND in E; [exact E|rewrite L; apply perm_lt; assumption|lia].
Qed.

Lemma iter_succ_l {A} m (f : A -> A) x : Nat.iter (S m) f x = f (Nat.iter m f x).
Proof. reflexivity. Qed.
Lemma inner_weights K D T F P beta fv lfv Y inv W X docLens A diffa s :
  t_exp (stm_inner K D T F P beta fv lfv Y inv W X docLens A diffa s) = exp_means K (t_means (stm_inner K D T F P beta fv lfv Y inv W X docLens A diffa s)).
Proof. unfold stm_inner. cbv zeta. cbn [t_exp t_means]. reflexivity. Qed.
Lemma outer_weights K D T F P beta fv lfv Y V inv lsq W X docLens s :
  t_exp (snd (stm_outer K D T F P beta fv lfv Y V inv lsq W X docLens s)) = exp_means K (t_means (snd (stm_outer K D T F P beta fv lfv Y V inv lsq W X docLens s))).
Proof.
  unfold stm_outer. cbv zeta. cbn [snd]. rewrite iter_succ_l. apply inner_weights.
Qed.

Section order.
  Variables K D T F P : nat.
  Variables beta fv lfv : R.
  Variables Y V : mat.
  Variable inv : mat -> mat.
  Variable lsq : mat -> mat -> mat.
  Variable argsort : list Z -> list nat.
  Variables W X : mat.
  Variable docLens : list Z.

  (** Training sorts the documents by length, updates them in blocks, and puts them back.
      Whatever order documents of the same length get, the outcome is that of training in
      the caller's order with each document's own length; only the initial topic weights
      are those of another document, the one at the position to which sorting moved this
      one, and the final weights stay in sorted order. *)
  Theorem C61_training_in_callers_order stop iterations A sigT vocab means expMeans varcs o :
    length docLens = D -> sorts docLens (argsort docLens) ->
    sorts (map Z.of_nat (argsort docLens)) (argsort (map Z.of_nat (argsort docLens))) -> order_free D lsq ->
    stm_train K D T F P beta fv lfv Y V inv lsq argsort stop iterations W X docLens A sigT vocab means expMeans varcs = Ok o ->
    exists position, (forall d, d < D -> position d < D /\ nth (position d) (argsort docLens) 0 = d) /\
    exists m, 1 <= m <= iterations /\ ((forall i A s, stop i A s = false) -> m = iterations) /\
    let s := {| t_means := means; t_exp := fun d => expMeans (position d); t_varcs := varcs; t_vocab := vocab; t_R := W; t_sigT := sigT |} in
    let '(A', s') := plain_train K D T F P beta fv lfv Y V inv lsq W X (fun d => IZR (nth d docLens 0%Z)) m A s in
    r_A o = A' /\ r_vocab o = t_vocab s' /\ r_lens o = docLens /\
    (forall i j, r_sigT o i j = t_sigT s' i j * sig_scale D F P)%R /\
    (forall d, d < D -> r_means o d = t_means s' d /\ r_varcs o d = t_varcs s' d /\ r_exp o (position d) = t_exp s' d).
  Proof.
    intros HD HS HB HL E. unfold stm_train in E.
    set (idx := argsort docLens) in *. set (back := argsort (map Z.of_nat idx)) in *.
    assert (HP : Permutation idx (seq 0 D)) by (destruct HS as [H _]; rewrite HD in H; exact H).
    destruct (sorts_inverse D idx back HP HB) as [HPB HI]. pose proof (sorts_inverse' D idx back HP HB) as HJ.
    exists (fun d => nth d back 0). split; [intros d Hd; split; [apply perm_lt; assumption|apply HI; exact Hd]|].
    destruct (stm_loop K D T F P beta fv lfv Y V inv lsq stop (rows idx W) (rows idx X) (map (fun i => nth i docLens 0%Z) idx) 0 iterations A
                {| t_means := rows idx means; t_exp := expMeans; t_varcs := rows idx varcs; t_vocab := vocab; t_R := rows idx W; t_sigT := sigT |}) as [A1 s1] eqn:EL.
    destruct iterations as [|iterations]; [discriminate|]. cbn [Nat.eqb] in E.
    set (p := {| t_means := means; t_exp := fun d => expMeans (nth d back 0); t_varcs := varcs; t_vocab := vocab; t_R := W; t_sigT := sigT |}).
    set (s0 := {| t_means := rows idx means; t_exp := expMeans; t_varcs := rows idx varcs; t_vocab := vocab; t_R := rows idx W; t_sigT := sigT |}) in EL.
    edestruct (follows_loop K D T F P beta fv lfv Y V inv lsq W X docLens idx HD HS HL stop (S iterations) 0 A s0 A p ltac:(lia)) as [m [Hm [Hst Ho]]].
    2:{ exists m. split; [exact Hm|]. split; [exact Hst|]. cbv zeta. fold p. rewrite EL in Ho.
        destruct (plain_train K D T F P beta fv lfv Y V inv lsq W X (fun d => IZR (nth d docLens 0%Z)) m A p) as [A2 p2].
        destruct Ho as [EA [[HF HV] ES]]. inversion E; subst o; clear E. cbn [r_A r_vocab r_lens r_sigT r_means r_varcs r_exp].
        split; [exact EA|]. split; [exact HV|]. split; [|split; [intros; rewrite ES; reflexivity|]].
        - assert (LB : length back = D) by (rewrite (Permutation_length HPB); apply seq_length).
          transitivity (map (fun d => nth d docLens 0%Z) (seq 0 D)).
          2:{ rewrite <- HD. symmetry. apply list_nth_seq. }
          transitivity (map (fun d => nth (nth d back 0) (map (fun i => nth i docLens 0%Z) idx) 0%Z) (seq 0 D)).
          + rewrite <- (map_map (fun d => nth d back 0) (fun i => nth i (map (fun i => nth i docLens 0%Z) idx) 0%Z)).
            f_equal. rewrite <- LB. apply list_nth_seq.
          + apply map_ext_in. intros d Hd. apply in_seq in Hd.
            rewrite (sorted_nth D docLens idx HD HS) by (apply perm_lt; [exact HPB|lia]). rewrite HI by lia. reflexivity.
        - intros d Hd. unfold rows. pose proof (perm_lt D back d HPB Hd) as Hb. destruct (HF _ Hb) as [H1 [H2 [H3 _]]].
          rewrite H1, H2, H3, HI by exact Hd. repeat split. }
    split; [|reflexivity]. intros i Hi. unfold s0, p. cbn [t_means t_exp t_varcs t_R]. rewrite HJ by exact Hi. repeat split.
  Qed.

  (** The returned weights are the exponentials of the returned means of the i-th
      shortest document. *)
  Theorem C61_weights_stay_sorted stop iterations A sigT vocab means expMeans varcs o :
    length docLens = D -> sorts docLens (argsort docLens) ->
    sorts (map Z.of_nat (argsort docLens)) (argsort (map Z.of_nat (argsort docLens))) ->
    stm_train K D T F P beta fv lfv Y V inv lsq argsort stop iterations W X docLens A sigT vocab means expMeans varcs = Ok o ->
    forall i, i < D -> r_exp o i = exp_means K (r_means o) (nth i (argsort docLens) 0).
  Proof.
    intros HD HS HB E i Hi. unfold stm_train in E.
    set (idx := argsort docLens) in *. set (back := argsort (map Z.of_nat idx)) in *.
    assert (HP : Permutation idx (seq 0 D)) by (destruct HS as [H _]; rewrite HD in H; exact H).
    pose proof (sorts_inverse' D idx back HP HB) as HJ.
    assert (C : forall todo itr A s A' s', 0 < todo ->
      stm_loop K D T F P beta fv lfv Y V inv lsq stop (rows idx W) (rows idx X) (map (fun i => nth i docLens 0%Z) idx) itr todo A s = (A', s') ->
      t_exp s' = exp_means K (t_means s')).
    { clear. induction todo as [|todo IH]; intros itr A s A' s' H E; [lia|]. cbn [stm_loop] in E.
      assert (Q : forall A1 s1, stm_outer K D T F P beta fv lfv Y V inv lsq (rows idx W) (rows idx X) (map (fun i => nth i docLens 0%Z) idx) s = (A1, s1) ->
                  t_exp s1 = exp_means K (t_means s1)) by (intros A1 s1 Q; apply (f_equal snd) in Q; cbn [snd] in Q; rewrite <- Q; apply outer_weights).
      destruct (stm_outer K D T F P beta fv lfv Y V inv lsq (rows idx W) (rows idx X) (map (fun i => nth i docLens 0%Z) idx) s) as [A1 s1].
      specialize (Q A1 s1 eq_refl). destruct (stop itr A1 s1); [inversion E; subst; exact Q|].
      destruct todo as [|todo]; [inversion E; subst; exact Q|]. apply (IH (S itr) A1 s1 A' s'); [lia|exact E]. }
    destruct (stm_loop K D T F P beta fv lfv Y V inv lsq stop (rows idx W) (rows idx X) (map (fun i => nth i docLens 0%Z) idx) 0 iterations A
                {| t_means := rows idx means; t_exp := expMeans; t_varcs := rows idx varcs; t_vocab := vocab; t_R := rows idx W; t_sigT := sigT |}) as [A1 s1] eqn:EL.
    destruct iterations as [|iterations]; [discriminate|]. cbn [Nat.eqb] in E. apply C in EL; [|lia].
    inversion E; subst o; clear E. cbn [r_exp r_means]. rewrite EL. unfold exp_means, rows. rewrite HJ by exact Hi. reflexivity.
  Qed.

  (** A plan without iterations fails. *)
  Theorem C61_no_iterations stop A sigT vocab means expMeans varcs :
    stm_train K D T F P beta fv lfv Y V inv lsq argsort stop 0 W X docLens A sigT vocab means expMeans varcs = Raise UnboundLocalError.
  Proof. reflexivity. Qed.
  Theorem C61_training_succeeds stop iterations A sigT vocab means expMeans varcs : 0 < iterations -> exists o,
    stm_train K D T F P beta fv lfv Y V inv lsq argsort stop iterations W X docLens A sigT vocab means expMeans varcs = Ok o.
  Proof.
    intros Hi. unfold stm_train. destruct (stm_loop _ _ _ _ _ _ _ _ _ _ _ _ _ _ _ _ _ _ _ _) as [A1 s1].
    destruct iterations; [lia|]. eexists. reflexivity.
  Qed.
End order.

(** ** Positive definite matrices *)
Definition posdef (K : nat) (M : mat) : Prop := forall x, (exists k, k < K /\ x k <> 0%R) -> (0 < quad K M x x)%R.
(** What is expected of scipy.linalg.inv. *)
Definition inverts (K : nat) (inv : mat -> mat) : Prop := forall M, symm K M -> posdef K M ->
  is_inverse K M (inv M) /\ is_inverse K (inv M) M.

Lemma classic_zero K (x : vec) : (forall k, k < K -> x k = 0%R) \/ exists k, k < K /\ x k <> 0%R.
Proof.
  induction K as [|K [IH|[k [Hk N]]]]; [left; lia| |right; exists k; split; [lia|exact N]].
  destruct (Req_dec (x K) 0%R) as [E|N]; [|right; exists K; split; [lia|exact N]].
  left. intros k Hk. destruct (Nat.eq_dec k K) as [->|]; [exact E|apply IH; lia].
Qed.
Lemma posdef_psd K M : posdef K M -> psd K M.
Proof.
  intros H x. destruct (classic_zero K x) as [Z|N]; [|left; apply H; exact N].
  rewrite (quad_ext K M M x x (fun _ => 0%R) (fun _ => 0%R)); [|reflexivity|exact Z|exact Z].
  right. unfold quad. rewrite (vsum_ext K _ (fun _ => 0%R)); [rewrite vsum_zero; reflexivity|].
  intros i _. rewrite (vsum_ext K _ (fun _ => 0%R)); [apply vsum_zero|]. intros; ring.
Qed.

Lemma is_inverse_vec K M N x : is_inverse K M N -> forall i, i < K -> vsum K (fun j => M i j * vsum K (fun l => N j l * x l))%R = x i.
Proof.
  intros H i Hi. rewrite (vsum_ext K _ (fun j => vsum K (fun l => M i j * N j l * x l))%R).
  2:{ intros j _. rewrite <- vsum_scale. apply vsum_ext. intros; ring. }
  rewrite (vsum_swap K K (fun j l => M i j * N j l * x l)%R).
  rewrite (vsum_ext K _ (fun l => eye i l * x l)%R); [apply vsum_eye; exact Hi|].
  intros l Hl. rewrite vsum_scale_r. rewrite H by assumption. reflexivity.
Qed.
Lemma inverse_symm K M N : symm K M -> is_inverse K M N -> is_inverse K N M -> symm K N.
Proof.
  intros HS HR HL i j Hi Hj.
  (* N = N (M N^T) = N^T *)
  transitivity (vsum K (fun a => N i a * vsum K (fun b => M a b * N j b))%R).
  - rewrite (vsum_ext K _ (fun a => eye j a * N i a)%R); [symmetry; apply vsum_eye; exact Hj|].
    intros a Ha. rewrite (vsum_ext K _ (fun b => N j b * M b a)%R); [rewrite (HL j a Hj Ha); ring|].
    intros b Hb. rewrite (HS a b Ha Hb). ring.
  - exact (is_inverse_vec K N M (fun b => N j b) HL i Hi).
Qed.
Lemma inverse_posdef K M N : posdef K M -> is_inverse K M N -> is_inverse K N M -> posdef K N.
Proof.
  intros HP HR HL x [k [Hk Hx]]. set (y := fun j => vsum K (fun l => N j l * x l)%R).
  assert (Ex : forall i, i < K -> vsum K (fun j => M i j * y j)%R = x i) by (intros i Hi; apply is_inverse_vec; assumption).
  assert (Q : quad K N x x = quad K M y y).
  { rewrite !quad_mat. apply vsum_ext. intros i Hi. rewrite (Ex i Hi). fold (y i). ring. }
  rewrite Q. apply HP. destruct (classic_zero K y) as [Z|H]; [exfalso|exact H].
  apply Hx. rewrite <- (Ex k Hk). rewrite (vsum_ext K _ (fun _ => 0%R)); [apply vsum_zero|]. intros j Hj. rewrite (Z j Hj). ring.
Qed.
Lemma posdef_add K M N c : posdef K M -> psd K N -> (0 <= c)%R -> posdef K (fun i j => M i j + c * N i j)%R.
Proof.
  intros HM HN Hc x Hx. rewrite quad_add_mat. pose proof (HM x Hx). pose proof (Rmult_le_pos _ _ Hc (HN x)). lra.
Qed.
Lemma quad_gram K m (G : mat) x : quad K (fun i j => vsum m (fun p => G i p * G j p))%R x x
  = vsum m (fun p => vsum K (fun i => x i * G i p) * vsum K (fun i => x i * G i p))%R.
Proof.
  unfold quad.
  rewrite (vsum_ext m _ (fun p => vsum K (fun i => vsum K (fun j => x i * (G i p * G j p) * x j)))%R).
  2:{ intros p _. rewrite <- vsum_scale_r. apply vsum_ext. intros i _. rewrite <- vsum_scale. apply vsum_ext. intros; ring. }
  rewrite (vsum_swap m K (fun p i => vsum K (fun j => x i * (G i p * G j p) * x j))%R). apply vsum_ext. intros i _.
  rewrite (vsum_swap m K (fun p j => x i * (G i p * G j p) * x j)%R). apply vsum_ext. intros j _.
  rewrite <- vsum_scale, <- vsum_scale_r. apply vsum_ext. intros; ring.
Qed.
Lemma quad_diag K (c x : vec) : quad K (fun i j => if i =? j then c i else 0)%R x x = vsum K (fun i => c i * (x i * x i))%R.
Proof.
  unfold quad. apply vsum_ext. intros i Hi. rewrite (vsum_ext K _ (fun j => eye i j * (x i * c i * x j))%R).
  - rewrite vsum_eye by exact Hi. ring.
  - intros j _. unfold eye. destruct (i =? j); ring.
Qed.
Lemma quad_sum K P Q x y : quad K (fun i j => P i j + Q i j)%R x y = (quad K P x y + quad K Q x y)%R.
Proof.
  rewrite (quad_ext K _ (fun i j => P i j + 1 * Q i j)%R x y x y); [rewrite quad_add_mat; ring|intros; ring|reflexivity|reflexivity].
Qed.
Lemma quad_scale K P c x y : quad K (fun i j => c * P i j)%R x y = (c * quad K P x y)%R.
Proof. unfold quad. rewrite <- vsum_scale. apply vsum_ext. intros. rewrite <- vsum_scale. apply vsum_ext. intros; ring. Qed.

Section covariance.
  Variables K D F P : nat.
  Variables fv lfv : R.
  Hypothesis Hfv : (0 < fv)%R.
  Hypothesis Hlfv : (0 < lfv)%R.
  Variables Y X A diffa means varcs : mat.
  Hypothesis HD : 0 < D.
  Hypothesis HV : forall d k, d < D -> k < K -> (0 < varcs d k)%R.
  Notation sigT := (stm_sigT D F P fv lfv Y X A diffa means varcs).
  Lemma sigT_symm : symm K sigT.
  Proof.
    intros i j _ _. unfold stm_sigT. rewrite (Nat.eqb_sym j i). f_equal; [f_equal; [f_equal; f_equal|]|].
    - apply vsum_ext. intros; ring.
    - apply vsum_ext. intros; ring.
    - apply vsum_ext. intros; ring.
    - destruct (Nat.eqb_spec i j) as [->|]; reflexivity.
  Qed.
  Lemma sigT_posdef : posdef K sigT.
  Proof.
    intros x [k [Hk Hx]]. unfold stm_sigT.
    rewrite (quad_sum K (fun i j => 1 / lfv * vsum P (fun p => Y i p * Y j p) + 1 / fv * vsum F (fun f => diffa i f * diffa j f)
                 + vsum D (fun d => (means d i - vsum F (fun f => X d f * A i f)) * (means d j - vsum F (fun f => X d f * A j f))))%R
                      (fun i j => if i =? j then vsum D (fun d => varcs d i) else 0)%R).
    rewrite (quad_sum K (fun i j => 1 / lfv * vsum P (fun p => Y i p * Y j p) + 1 / fv * vsum F (fun f => diffa i f * diffa j f))%R
                      (fun i j => vsum D (fun d => (means d i - vsum F (fun f => X d f * A i f)) * (means d j - vsum F (fun f => X d f * A j f))))%R).
    rewrite (quad_sum K (fun i j => 1 / lfv * vsum P (fun p => Y i p * Y j p))%R (fun i j => 1 / fv * vsum F (fun f => diffa i f * diffa j f))%R).
    rewrite (quad_scale K (fun i j => vsum P (fun p => Y i p * Y j p))%R), (quad_scale K (fun i j => vsum F (fun f => diffa i f * diffa j f))%R).
    rewrite (quad_gram K P Y), (quad_gram K F diffa), (quad_gram K D (fun k d => means d k - vsum F (fun f => X d f * A k f))%R), quad_diag.
    assert (S : forall m (g : vec), (0 <= vsum m (fun p => g p * g p))%R) by (intros m g; apply vsum_nonneg; intros; apply Rle_0_sqr).
    pose proof (S P (fun p => vsum K (fun i => x i * Y i p))%R) as S1. pose proof (S F (fun p => vsum K (fun i => x i * diffa i p))%R) as S2.
    pose proof (S D (fun d => vsum K (fun i => x i * (means d i - vsum F (fun f => X d f * A i f))))%R) as S3. cbv beta in S1, S2, S3.
    assert (S4 : (0 < vsum K (fun i => vsum D (fun d => varcs d i) * (x i * x i)))%R).
    { apply (vsum_pos_one K _ k Hk).
      - intros j Hj. apply Rmult_le_pos; [apply vsum_nonneg; intros d Hd; left; apply HV; assumption|apply Rle_0_sqr].
      - apply Rmult_lt_0_compat; [apply vsum_pos; [exact HD|]; intros d Hd; apply HV; assumption|].
        assert (0 <= x k * x k)%R by apply Rle_0_sqr. assert (x k * x k <> 0)%R by (apply Rmult_integral_contrapositive; split; exact Hx). lra. }
    assert (0 < 1 / lfv)%R by (apply Rdiv_lt_0_compat; lra). assert (0 < 1 / fv)%R by (apply Rdiv_lt_0_compat; lra).
    pose proof (Rmult_le_pos _ _ (Rlt_le _ _ H) S1). pose proof (Rmult_le_pos _ _ (Rlt_le _ _ H0) S2). lra.
  Qed.
End covariance.

(** ** C136: each step of the means raises every document's posterior probability *)
Section step.
  Variables K D T F P : nat.
  Variables beta fv lfv : R.
  Variables Y : mat.
  Variable inv : mat -> mat.
  Variables W X : mat.
  Variable docLens : list Z.
  Variables A diffa : mat.
  Hypothesis HK : 0 < K.
  Hypothesis HT : 0 < T.
  Hypothesis Hb : (0 < beta)%R.
  Hypothesis Hfv : (0 < fv)%R.
  Hypothesis Hlfv : (0 < lfv)%R.
  Hypothesis HI : inverts K inv.
  Hypothesis HL : length docLens = D.
  Hypothesis HC : counts D T W (fun d => IZR (nth d docLens 0%Z)).
  (** Variances and topic weights are positive, and vocabularies and expected counts not
      negative, as in new states. *)
  Definition sound (s : stm) : Prop :=
    (forall d k, d < D -> k < K -> (0 < t_varcs s d k)%R) /\ (forall d k, d < D -> k < K -> (0 < t_exp s d k)%R) /\
    (forall d t, d < D -> t < T -> (0 <= t_R s d t)%R) /\ (forall k t, k < K -> t < T -> (0 <= t_vocab s k t)%R).
  Notation inner s := (stm_inner K D T F P beta fv lfv Y inv W X docLens A diffa s).

  Lemma scale_pos : 0 < D -> (0 < sig_scale D F P)%R.
  Proof.
    intros HD. unfold sig_scale. apply Rdiv_lt_0_compat; [lra|]. pose proof (pos_INR P). pose proof (pos_INR F). apply lt_INR in HD. cbn [INR] in HD. lra.
  Qed.
  Lemma length_nonneg d : d < D -> (0 <= IZR (nth d docLens 0%Z))%R.
  Proof. intros Hd. destruct HC as [HW Hn]. rewrite (Hn d Hd). apply vsum_nonneg. intros; apply HW; assumption. Qed.
  Lemma diag_pos M k : posdef K M -> k < K -> (0 < M k k)%R.
  Proof.
    intros HM Hk. specialize (HM (eye k)). rewrite quad_mat, vsum_eye in HM by exact Hk.
    rewrite (vsum_ext K _ (fun j => eye k j * M k j)%R), vsum_eye in HM by (try exact Hk; intros; ring).
    apply HM. exists k. split; [exact Hk|]. unfold eye. rewrite Nat.eqb_refl. lra.
  Qed.

  Lemma sound_inner s : sound s -> sound (inner s) /\ forall k, k < K -> positive_dist T (t_vocab (inner s) k).
  Proof.
    intros [HV [HE [HR HB]]].
    assert (Hpos : forall k t, k < K -> t < T -> (0 < t_vocab s k t * vsum D (fun d => t_R s d t * t_exp s d k) + beta)%R).
    { intros k t Hk Ht. assert (0 <= t_vocab s k t * vsum D (fun d => t_R s d t * t_exp s d k))%R; [|lra].
      apply Rmult_le_pos; [apply HB; assumption|]. apply vsum_nonneg. intros d Hd.
      apply Rmult_le_pos; [apply HR; assumption|left; apply HE; assumption]. }
    assert (Hd : forall k, k < K -> positive_dist T (t_vocab (inner s) k)).
    { intros k Hk. cbn [t_vocab stm_inner]. unfold stm_inner. cbv zeta. cbn [t_vocab]. unfold stm_vocab, norm_rows.
      assert (0 < vsum T (fun t => t_vocab s k t * vsum D (fun d => t_R s d t * t_exp s d k) + beta))%R by (apply vsum_pos; [exact HT|]; intros; apply Hpos; assumption).
      split; [intros t Ht; apply Rdiv_lt_0_compat; [apply Hpos; assumption|assumption]|].
      unfold Rdiv. rewrite vsum_scale_r. apply Rinv_r. lra. }
    split; [|exact Hd]. repeat split.
    - intros d k Hdd Hk. unfold stm_inner. cbv zeta. cbn [t_varcs].
      assert (HM := sigT_posdef K D F P fv lfv Hfv Hlfv Y X A diffa (t_means s) (t_varcs s) ltac:(lia) HV).
      destruct (HI _ (sigT_symm K D F P fv lfv Y X A diffa (t_means s) (t_varcs s)) HM) as [R1 L1].
      pose proof (diag_pos _ k (inverse_posdef K _ _ HM R1 L1) Hk) as Hp. pose proof (length_nonneg d Hdd) as Hn. pose proof (scale_pos ltac:(lia)) as Hs.
      apply Rdiv_lt_0_compat; [lra|]. assert (0 < isig_scale D F P)%R by (apply Rdiv_lt_0_compat; lra).
      pose proof (Rmult_lt_0_compat _ _ H Hp). assert (1 <= INR K)%R by (apply (le_INR 1); lia).
      assert (0 <= IZR (nth d docLens 0%Z) * (INR K - 1) / INR K)%R; [|lra].
      apply Rmult_le_pos; [apply Rmult_le_pos; lra|]. left. apply Rinv_0_lt_compat. lra.
    - intros d k Hdd Hk. unfold stm_inner. cbv zeta. cbn [t_exp]. apply exp_pos.
    - intros d t Hdd Ht. destruct HC as [HW _]. unfold stm_inner in Hd |- *. cbv zeta in Hd |- *. cbn [t_R t_vocab] in Hd |- *.
      apply (quotient_nonneg K D T W HW); [intros; apply HE; assumption|apply positive_covers; assumption|assumption|assumption].
    - intros k t Hk Ht. left. apply (Hd k Hk). exact Ht.
  Qed.

  (** The documents are in order of their lengths, as after sorting. *)
  Theorem C136_means_improve s d : rising docLens -> sound s -> t_exp s = exp_means K (t_means s) -> d < D ->
    let mu := fun k => vsum F (fun f => X d f * A k f)%R in
    let precision := fun i j => (isig_scale D F P * inv (t_sigT (inner s)) i j)%R in
    posdef K precision /\
    (log_posterior K T (t_vocab (inner s)) mu precision (W d) (t_means s d)
     <= log_posterior K T (t_vocab (inner s)) mu precision (W d) (t_means (inner s) d))%R.
  Proof.
    intros Hrise Hsound He Hd mu precision. destruct (sound_inner s Hsound) as [_ Hvoc].
    assert (Hcov : covers K T (t_vocab (inner s))) by (apply positive_covers; assumption).
    destruct Hsound as [HV _]. destruct (HC) as [HW Hn].
    assert (HM := sigT_posdef K D F P fv lfv Hfv Hlfv Y X A diffa (t_means s) (t_varcs s) ltac:(lia) HV).
    assert (HMs := sigT_symm K D F P fv lfv Y X A diffa (t_means s) (t_varcs s)).
    destruct (HI _ HMs HM) as [R1 L1].
    change (stm_sigT D F P fv lfv Y X A diffa (t_means s) (t_varcs s)) with (t_sigT (inner s)) in *.
    set (isigT := inv (t_sigT (inner s))) in *.
    pose proof (inverse_posdef K _ _ HM R1 L1) as HP. pose proof (inverse_symm K _ _ HMs R1 L1) as HS. fold isigT in HP, HS.
    pose proof (scale_pos ltac:(lia)) as Hsc. assert (Hisc : (0 < isig_scale D F P)%R) by (apply Rdiv_lt_0_compat; lra).
    assert (Hp : posdef K precision). { intros x Hx. unfold precision. fold isigT. rewrite quad_scale. apply Rmult_lt_0_compat; [exact Hisc|apply HP; exact Hx]. }
    split; [exact Hp|].
    apply (posterior_grows K T (t_vocab (inner s)) (W d) mu (t_means s d) precision HK Hcov (fun t Ht => HW d t Hd Ht));
      [intros i j Hi Hj; unfold precision; fold isigT; rewrite (HS i j Hi Hj); reflexivity|apply posdef_psd; exact Hp|].
    (* the linear equations *)
    set (N := IZR (nth d docLens 0%Z)). set (M := fun i j => (isigT i j + sig_scale D F P * N * bohning K i j)%R).
    assert (HN : (0 <= N)%R) by (apply length_nonneg; exact Hd).
    assert (MS : symm K M). { intros i j Hi Hj. unfold M. rewrite (HS i j Hi Hj), (bohning_symm K i j Hi Hj). reflexivity. }
    assert (MP : posdef K M) by (apply posdef_add; [exact HP|apply bohning_psd; exact HK|apply Rmult_le_pos; lra]).
    destruct (HI M MS MP) as [R2 L2].
    set (r := stm_rhs K D F P X A isigT (token_weights K T W (t_exp s) (t_vocab (inner s))) (fun d => IZR (nth d docLens 0%Z)) (t_means s)).
    assert (EM : forall k, t_means (inner s) d k = vsum K (fun j => r d j * (inv M j k * sig_scale D F P))%R).
    { intros k. exact (blocks_all K D F P inv isigT r docLens Hrise HL _ d k Hd). }
    intros k Hk. rewrite <- (Hn d Hd). fold N.
    rewrite (vsum_ext K _ (fun l => vsum K (fun j => (inv M j l * M l k) * r d j))%R).
    2:{ intros l Hl. rewrite EM, <- vsum_scale. apply vsum_ext. intros j Hj. rewrite (MS l k Hl Hk). change (M k l) with (isigT k l + sig_scale D F P * N * bohning K k l)%R. unfold precision. fold isigT. generalize (inv M j l). intros q.
        unfold isig_scale. field. lra. }
    rewrite (vsum_swap K K (fun l j => inv M j l * M l k * r d j)%R).
    rewrite (vsum_ext K _ (fun j => eye k j * r d j)%R).
    2:{ intros j Hj. rewrite vsum_scale_r, (L2 j k Hj Hk). unfold eye. rewrite (Nat.eqb_sym j k). reflexivity. }
    rewrite vsum_eye by exact Hk. unfold r, stm_rhs. fold N. rewrite He.
    rewrite (token_weights_expected K T W (t_means s) (t_vocab (inner s)) d k Hcov). rewrite (vsoftmax_is K HK).
    replace (vsum K (fun j => vsum F (fun f => X d f * A j f) * isigT j k) * isig_scale D F P)%R
      with (vsum K (fun j => precision k j * mu j))%R; [ring|].
    rewrite <- vsum_scale_r. apply vsum_ext. intros j Hj. unfold precision, mu. fold isigT. rewrite (HS j k Hj Hk). ring.
  Qed.
End step.

(** ** C64: vocabularies after training *)
Theorem C64_stm_vocabulary K D T F P beta fv lfv Y V inv lsq argsort W X docLens stop iterations A sigT vocab means expMeans varcs o :
  0 < K -> 0 < T -> (0 < beta)%R -> (0 < fv)%R -> (0 < lfv)%R -> inverts K inv ->
  length docLens = D -> counts D T W (fun d => IZR (nth d docLens 0%Z)) -> sorts docLens (argsort docLens) ->
  (forall k t, k < K -> t < T -> (0 <= vocab k t)%R) -> (forall d k, d < D -> k < K -> (0 < expMeans d k)%R) ->
  (forall d k, d < D -> k < K -> (0 < varcs d k)%R) ->
  stm_train K D T F P beta fv lfv Y V inv lsq argsort stop iterations W X docLens A sigT vocab means expMeans varcs = Ok o ->
  forall k, k < K -> positive_dist T (r_vocab o k).
Proof.
  intros HK HT Hb Hfv Hlfv HI HD HC HS Hv He Hva E k Hk. unfold stm_train in E. set (idx := argsort docLens) in *.
  assert (HP : Permutation idx (seq 0 D)) by (destruct HS as [H _]; rewrite HD in H; exact H).
  set (sorted := map (fun i => nth i docLens 0%Z) idx) in *.
  assert (Hlen : length idx = D) by (rewrite (Permutation_length HP); apply seq_length).
  assert (HLs : length sorted = D) by (unfold sorted; rewrite map_length; exact Hlen).
  assert (HCs : counts D T (rows idx W) (fun d => IZR (nth d sorted 0%Z))).
  { destruct HC as [HW Hn]. split.
    - intros d t Hd Ht. apply HW; [apply perm_lt; assumption|exact Ht].
    - intros d Hd. unfold sorted. rewrite (sorted_nth D docLens idx HD HS d Hd). apply Hn. apply perm_lt; assumption. }
  assert (C : forall todo itr A s A' s', 0 < todo -> sound K D T s ->
    stm_loop K D T F P beta fv lfv Y V inv lsq stop (rows idx W) (rows idx X) sorted itr todo A s = (A', s') ->
    forall k, k < K -> positive_dist T (t_vocab s' k)).
  { clear E A. induction todo as [|todo IH]; intros itr A s A' s' H Hsd E; [lia|]. cbn [stm_loop] in E.
    assert (Q : let s1 := snd (stm_outer K D T F P beta fv lfv Y V inv lsq (rows idx W) (rows idx X) sorted s) in
                sound K D T s1 /\ forall k, k < K -> positive_dist T (t_vocab s1 k)).
    { unfold stm_outer. cbv zeta. cbn [snd]. rewrite iter_succ_l.
      apply (sound_inner K D T F P beta fv lfv Y inv); try assumption.
      generalize 9. intros m. induction m as [|m IHm]; [exact Hsd|]. rewrite iter_succ_l.
      apply (sound_inner K D T F P beta fv lfv Y inv); assumption. }
    destruct (stm_outer K D T F P beta fv lfv Y V inv lsq (rows idx W) (rows idx X) sorted s) as [A1 s1]. cbn [snd] in Q. destruct Q as [Q1 Q2].
    destruct (stop itr A1 s1); [inversion E; subst; exact Q2|].
    destruct todo as [|todo]; [inversion E; subst; exact Q2|]. apply (IH (S itr) A1 s1 A' s'); [lia|exact Q1|exact E]. }
  destruct (stm_loop K D T F P beta fv lfv Y V inv lsq stop (rows idx W) (rows idx X) sorted 0 iterations A
              {| t_means := rows idx means; t_exp := expMeans; t_varcs := rows idx varcs; t_vocab := vocab; t_R := rows idx W; t_sigT := sigT |}) as [A1 s1] eqn:EL.
  destruct iterations as [|iterations]; [discriminate|]. cbn [Nat.eqb] in E. inversion E; subst o; clear E. cbn [r_vocab].
  refine (C (S iterations) 0 A _ A1 s1 ltac:(lia) _ EL k Hk). repeat split; cbn [t_varcs t_exp t_R t_vocab].
  - intros d j Hd Hj. apply Hva; [apply perm_lt; assumption|exact Hj].
  - exact He.
  - apply HCs.
  - exact Hv.
Qed.

(** ** The order of the documents changes the outcome *)
(** Two documents: one is the first word, the other has no words. *)
Definition argsort2 (l : list Z) : list nat := if (nth 0 l 0 <=? nth 1 l 0)%Z then [0; 1] else [1; 0].
Lemma argsort2_sorts l : length l = 2 -> sorts l (argsort2 l).
Proof.
  intros H. destruct l as [|x [|y [|]]]; try discriminate. unfold argsort2. cbn [nth].
  destruct (Z.leb_spec x y); (split; [cbn; try apply perm_swap; reflexivity|]);
    intros i j Hij Hj; cbn [length] in Hj; assert (i = 0) by lia; assert (j = 1) by lia; subst; cbn [nth]; lia.
Qed.
Definition none : mat := fun _ _ => 0%R.
Definition half_vocab : mat := fun _ _ => (1 / 2)%R.
Definition ones : mat := fun _ _ => 1%R.
Definition pair_rows (a b : vec) : mat := fun d => if d =? 0 then a else b.
Definition word_doc : vec := fun t => if t =? 0 then 1%R else 0%R.
Definition no_words : vec := fun _ => 0%R.
Definition even_weights : vec := fun _ => 1%R.
Definition uneven_weights : vec := fun k => if k =? 0 then 2%R else 1%R.

Notation step2 W := (stm_inner 2 2 2 1 1 1 1 1 none inv2 W none [0; 1]%Z none none).
(** The states of these runs; the empty document comes first. *)
Record shape (s : stm) (delta a b x y rho : R) : Prop := {
  sh_m : t_means s 0 0 = 0%R /\ t_means s 0 1 = 0%R /\ t_means s 1 0 = delta /\ t_means s 1 1 = (- delta)%R;
  sh_e : t_exp s 1 0 = a /\ t_exp s 1 1 = b /\ (0 < a)%R /\ (0 < b)%R;
  sh_v : t_vocab s 0 0 = x /\ t_vocab s 1 0 = y /\ (0 < x)%R /\ (0 < y)%R;
  sh_r : t_R s 0 0 = 0%R /\ t_R s 0 1 = 0%R /\ t_R s 1 0 = rho /\ t_R s 1 1 = 0%R /\ (0 < rho)%R;
  sh_c : t_varcs s 0 0 = t_varcs s 0 1 /\ t_varcs s 1 0 = t_varcs s 1 1 /\ (0 < t_varcs s 0%nat 0%nat)%R /\ (0 < t_varcs s 1%nat 0%nat)%R }.

Lemma softmax_gap delta : (0 <= delta)%R -> 
  (softmax 2 (fun k => if k =? 0 then delta else - delta) 0%nat - softmax 2 (fun k => if k =? 0 then delta else - delta) 1%nat <= delta)%R.
Proof.
  intros [Hd| <-].
  2:{ unfold softmax, vsum. cbn [seq map rsum Nat.eqb]. rewrite !Ropp_0. lra. }
  set (m := fun k : nat => if k =? 0 then delta else (- delta)%R).
  pose proof (bohning_lse 2 m (fun k => - m k)%R ltac:(lia)) as A.
  pose proof (bohning_lse 2 (fun _ => 0%R) m ltac:(lia)) as B. cbv beta in A, B.
  rewrite (vsum_ext 2 (fun k => exp (m k + - m k)) (fun k => exp 0)) in A by (intros; f_equal; ring).
  rewrite (vsum_ext 2 (fun k => exp (0 + m k)) (fun k => exp (m k))) in B by (intros; f_equal; ring).
  assert (Z : vsum 2 (fun k => softmax 2 (fun _ => 0%R) k * m k)%R = 0%R).
  { unfold vsum, softmax, m. cbn [seq map rsum Nat.eqb]. lra. }
  rewrite Z in B. unfold quad, bohning, eye, vsum in A, B. cbn [seq map rsum Nat.eqb INR] in A, B.
  change (m 0) with delta in A, B. change (m 1) with (- delta)%R in A, B. set (s0 := softmax 2 m 0) in *. set (s1 := softmax 2 m 1) in *.
  assert (delta * (s0 - s1) <= delta * delta)%R by lra. apply (Rmult_le_reg_l delta); assumption.
Qed.

Lemma blocks2 isigT r m : let out := stm_blocks 2 2 1 1 inv2 isigT r (unique [0; 1]%Z) (map (fun x => first_index x [0; 1]%Z) (unique [0; 1]%Z) ++ [2]) m in
  forall d k, d < 2 -> out d k = vsum 2 (fun j => r d j * (inv2 (fun i j => isigT i j + sig_scale 2 1 1 * INR d * bohning 2 i j) j k * sig_scale 2 1 1))%R.
Proof.
  intros out d k Hd. unfold out. rewrite (blocks_all 2 2 1 1 inv2 isigT r [0; 1]%Z); [|intros i j Hij Hj; cbn [length] in Hj; assert (i = 0) by lia; assert (j = 1) by lia; subst; cbn [nth]; lia|reflexivity|exact Hd].
  destruct d as [|[|]]; [| |lia]; reflexivity.
Qed.
Lemma step_shape W s delta a b x y rho : W 0 = no_words -> W 1 = word_doc -> shape s delta a b x y rho -> exists delta' a' b' x' y' rho',
  shape (step2 W s) delta' a' b' x' y' rho' /\
  ((0 <= delta -> b <= a -> y <= x -> b * y < a * x -> 0 < delta' /\ b' < a' /\ y' < x') /\
   (delta = 0 -> a = b -> x = y -> delta' = 0 /\ a' = b' /\ x' = y'))%R.
Proof.
  intros W0 W1 [[M00 [M01 [M10 M11]]] [E0 [E1 [Ha Hb]]] [V0 [V1 [Hx Hy]]] [R00 [R01 [R10 [R11 Hr]]]] [C0 [C1 [H0 H1]]]].
  set (x' := ((x * rho * a + 1) / (x * rho * a + 2))%R). set (y' := ((y * rho * b + 1) / (y * rho * b + 2))%R).
  set (s' := step2 W s).
  assert (Px : (0 < x * rho * a)%R) by (apply Rmult_lt_0_compat; [apply Rmult_lt_0_compat|]; assumption).
  assert (Py : (0 < y * rho * b)%R) by (apply Rmult_lt_0_compat; [apply Rmult_lt_0_compat|]; assumption).
  assert (X0 : (0 < x')%R) by (apply Rdiv_lt_0_compat; lra). assert (Y0 : (0 < y')%R) by (apply Rdiv_lt_0_compat; lra).
  assert (V0' : t_vocab s' 0 0 = x').
  { unfold s', stm_inner. cbv zeta. cbn [t_vocab]. unfold stm_vocab, norm_rows, vsum. cbn [seq map rsum]. rewrite R00, R01, R10, R11, E0, V0.
    unfold x'. f_equal; ring. }
  assert (V1' : t_vocab s' 1 0 = y').
  { unfold s', stm_inner. cbv zeta. cbn [t_vocab]. unfold stm_vocab, norm_rows, vsum. cbn [seq map rsum]. rewrite R00, R01, R10, R11, E1, V1.
    unfold y'. f_equal; ring. }
  set (den := (a * x' + b * y')%R). assert (Hden : (0 < den)%R) by (apply Rplus_lt_0_compat; apply Rmult_lt_0_compat; assumption).
  assert (Q : forall d t, t_R s' d t = quotient 2 W (t_exp s) (t_vocab s') d t) by reflexivity.
  assert (R00' : t_R s' 0 0 = 0%R) by (rewrite Q; unfold quotient; rewrite W0; unfold no_words; cbn [Nat.eqb]; unfold Rdiv; ring).
  assert (R01' : t_R s' 0 1 = 0%R) by (rewrite Q; unfold quotient; rewrite W0; unfold no_words; cbn [Nat.eqb]; unfold Rdiv; ring).
  assert (R11' : t_R s' 1 1 = 0%R) by (rewrite Q; unfold quotient; rewrite W1; unfold word_doc; cbn [Nat.eqb]; unfold Rdiv; ring).
  assert (R10' : t_R s' 1 0 = (/ den)%R).
  { rewrite Q. unfold quotient. rewrite W1. unfold word_doc, vsum. cbn [Nat.eqb seq map rsum]. rewrite E0, E1, V0', V1'. unfold den. field. fold den. lra. }
  (* covariance *)
  set (c := (t_varcs s 0%nat 0%nat + t_varcs s 1%nat 0%nat)%R). assert (Hc : (0 < c)%R) by (unfold c; lra).
  set (q2 := (delta * delta)%R). assert (Hq2 : (0 <= q2)%R) by (apply Rle_0_sqr).
  assert (S00 : t_sigT s' 0 0 = (q2 + c)%R).
  { unfold s', stm_inner. cbv zeta. cbn [t_sigT]. unfold stm_sigT, none, vsum. cbn [seq map rsum Nat.eqb]. rewrite M00, M10. unfold q2, c. field. }
  assert (S11 : t_sigT s' 1 1 = (q2 + c)%R).
  { unfold s', stm_inner. cbv zeta. cbn [t_sigT]. unfold stm_sigT, none, vsum. cbn [seq map rsum Nat.eqb]. rewrite M01, M11, <- C0, <- C1. unfold q2, c. field. }
  assert (S01 : t_sigT s' 0 1 = (- q2)%R).
  { unfold s', stm_inner. cbv zeta. cbn [t_sigT]. unfold stm_sigT, none, vsum. cbn [seq map rsum Nat.eqb]. rewrite M00, M01, M10, M11. unfold q2. field. }
  assert (S10 : t_sigT s' 1 0 = (- q2)%R).
  { unfold s', stm_inner. cbv zeta. cbn [t_sigT]. unfold stm_sigT, none, vsum. cbn [seq map rsum Nat.eqb]. rewrite M00, M01, M10, M11. unfold q2. field. }
  set (det := (c * c + 2 * q2 * c)%R). assert (Hdet : (0 < det)%R) by (unfold det; nra).
  set (p := ((q2 + c) / det)%R). set (q := (q2 / det)%R).
  assert (Hp : (0 < p)%R) by (apply Rdiv_lt_0_compat; lra). assert (Hq : (0 <= q)%R) by (apply Rmult_le_pos; [lra|left; apply Rinv_0_lt_compat; lra]).
  assert (Hpq : (0 < p - q)%R). { replace (p - q)%R with (c / det)%R by (unfold p, q; field; lra). apply Rdiv_lt_0_compat; lra. }
  assert (D0 : ((q2 + c) * (q2 + c) - - q2 * - q2 = det)%R) by (unfold det; ring).
  assert (I00 : inv2 (t_sigT s') 0 0 = p) by (unfold inv2, p; rewrite S00, S01, S10, S11, D0; field; lra).
  assert (I11 : inv2 (t_sigT s') 1 1 = p) by (unfold inv2, p; rewrite S00, S01, S10, S11, D0; field; lra).
  assert (I01 : inv2 (t_sigT s') 0 1 = q) by (unfold inv2, q; rewrite S00, S01, S10, S11, D0; field; lra).
  assert (I10 : inv2 (t_sigT s') 1 0 = q) by (unfold inv2, q; rewrite S00, S01, S10, S11, D0; field; lra).
  (* means *)
  set (r := stm_rhs 2 2 1 1 none none (inv2 (t_sigT s')) (token_weights 2 2 W (t_exp s) (t_vocab s')) (fun d => IZR (nth d [0; 1]%Z 0%Z)) (t_means s)).
  assert (EM : forall d k, d < 2 -> t_means s' d k = vsum 2 (fun j => r d j * (inv2 (fun i j => inv2 (t_sigT s') i j + sig_scale 2 1 1 * INR d * bohning 2 i j) j k * sig_scale 2 1 1))%R).
  { intros d k Hd. exact (blocks2 (inv2 (t_sigT s')) r _ d k Hd). }
  assert (SC : sig_scale 2 1 1 = (1 / 4)%R) by (unfold sig_scale; cbn [INR]; field).
  assert (Rz : forall k, r 0 k = 0%R).
  { intros k. unfold r, stm_rhs, token_weights, quotient, none. rewrite W0. unfold no_words, vsum. cbn [seq map rsum Nat.eqb nth]. unfold Rdiv. ring. }
  assert (Sm : forall k, vsoftmax 2 (t_means s 1) k = softmax 2 (t_means s 1) k) by (intros; apply vsoftmax_is; lia).
  set (s0 := softmax 2 (t_means s 1) 0). set (s1 := softmax 2 (t_means s 1) 1).
  assert (Ssum : (s0 + s1 = 1)%R).
  { pose proof (softmax_sum 2 ltac:(lia) (t_means s 1)) as H. unfold vsum in H. cbn [seq map rsum] in H. unfold s0, s1. lra. }
  assert (Gap : (0 <= delta -> s0 - s1 <= delta)%R).
  { intros Hd. pose proof (softmax_gap delta Hd) as H. unfold s0, s1, softmax, vsum. unfold softmax, vsum in H. cbn [seq map rsum Nat.eqb] in H |- *. rewrite M10, M11. exact H. }
  assert (Gap0 : (delta = 0 -> s0 = s1)%R).
  { intros Hd. unfold s0, s1, softmax. rewrite M10, M11, Hd, Ropp_0. reflexivity. }
  assert (R0 : r 1 0 = (a * x' / den + delta / 2 - s0)%R).
  { unfold r, stm_rhs. rewrite Sm. fold s0. cbn [nth]. unfold token_weights. rewrite <- !Q || idtac.
    unfold vsum. cbn [seq map rsum]. rewrite <- !Q, R10', R11', E0, V0', M10, M11. unfold none, bohning, eye. cbn [Nat.eqb INR]. field. lra. }
  assert (R1 : r 1 1 = (b * y' / den - delta / 2 - s1)%R).
  { unfold r, stm_rhs. rewrite Sm. fold s1. cbn [nth]. unfold token_weights.
    unfold vsum. cbn [seq map rsum]. rewrite <- !Q, R10', R11', E1, V1', M10, M11. unfold none, bohning, eye. cbn [Nat.eqb INR]. field. lra. }
  assert (Rneg : r 1 1 = (- r 1%nat 0%nat)%R).
  { rewrite R0, R1. assert (a * x' / den + b * y' / den = 1)%R by (unfold den; field; fold den; lra). lra. }
  set (delta' := (r 1%nat 0%nat / (4 * (p - q + 1 / 8)))%R).
  assert (M10' : t_means s' 1 0 = delta').
  { rewrite EM by lia. unfold vsum. cbn [seq map rsum]. rewrite Rneg, SC. 
    match goal with |- context [(r 1%nat 0%nat * (inv2 ?g _ _ * _))%R] => set (G := g) end.
    assert (G00 : G 0 0 = (p + 1 / 12)%R) by (unfold G; rewrite I00; unfold bohning, eye; cbn [Nat.eqb INR]; field).
    assert (G11 : G 1 1 = (p + 1 / 12)%R) by (unfold G; rewrite I11; unfold bohning, eye; cbn [Nat.eqb INR]; field).
    assert (G01 : G 0 1 = (q - 1 / 24)%R) by (unfold G; rewrite I01; unfold bohning, eye; cbn [Nat.eqb INR]; field).
    assert (G10 : G 1 0 = (q - 1 / 24)%R) by (unfold G; rewrite I10; unfold bohning, eye; cbn [Nat.eqb INR]; field).
    unfold inv2. rewrite G00, G01, G10, G11.
    replace ((p + 1 / 12) * (p + 1 / 12) - (q - 1 / 24) * (q - 1 / 24))%R with ((p - q + 1 / 8) * (p + q + 1 / 24))%R by field.
    unfold delta'. field. split; lra. }
  assert (M11' : t_means s' 1 1 = (- delta')%R).
  { rewrite EM by lia. unfold vsum. cbn [seq map rsum]. rewrite Rneg, SC. 
    match goal with |- context [(r 1%nat 0%nat * (inv2 ?g _ _ * _))%R] => set (G := g) end.
    assert (G00 : G 0 0 = (p + 1 / 12)%R) by (unfold G; rewrite I00; unfold bohning, eye; cbn [Nat.eqb INR]; field).
    assert (G11 : G 1 1 = (p + 1 / 12)%R) by (unfold G; rewrite I11; unfold bohning, eye; cbn [Nat.eqb INR]; field).
    assert (G01 : G 0 1 = (q - 1 / 24)%R) by (unfold G; rewrite I01; unfold bohning, eye; cbn [Nat.eqb INR]; field).
    assert (G10 : G 1 0 = (q - 1 / 24)%R) by (unfold G; rewrite I10; unfold bohning, eye; cbn [Nat.eqb INR]; field).
    unfold inv2. rewrite G00, G01, G10, G11.
    replace ((p + 1 / 12) * (p + 1 / 12) - (q - 1 / 24) * (q - 1 / 24))%R with ((p - q + 1 / 8) * (p + q + 1 / 24))%R by field.
    unfold delta'. field. split; lra. }
  assert (EX : forall k, t_exp s' 1 k = exp (t_means s' 1%nat k - vmax 2 (t_means s' 1%nat))) by reflexivity.
  exists delta', (t_exp s' 1 0), (t_exp s' 1 1), x', y', (/ den)%R. split; [|split].
  - constructor.
    + repeat split; try assumption; rewrite EM by lia; unfold vsum; cbn [seq map rsum]; rewrite !Rz; ring.
    + repeat split; rewrite EX; apply exp_pos.
    + repeat split; assumption.
    + repeat split; try assumption. apply Rinv_0_lt_compat. exact Hden.
    + assert (VC : forall d k, t_varcs s' d k = (1 / (IZR (nth d [0; 1]%Z 0%Z) * (INR 2 - 1) / INR 2 + isig_scale 2 1 1 * inv2 (t_sigT s') k k))%R) by reflexivity.
      assert (IS : isig_scale 2 1 1 = 4%R) by (unfold isig_scale; rewrite SC; field).
      rewrite !VC, I00, I11, IS. cbn [nth INR]. repeat split; apply Rdiv_lt_0_compat; lra.
  - intros Hd Hab Hxy Hs.
    assert (Hxy' : (y' < x')%R).
    { unfold x', y'. assert (y * rho * b < x * rho * a)%R by nra.
      replace ((y * rho * b + 1) / (y * rho * b + 2))%R with (1 - / (y * rho * b + 2))%R by (field; lra).
      replace ((x * rho * a + 1) / (x * rho * a + 2))%R with (1 - / (x * rho * a + 2))%R by (field; lra).
      assert (/ (x * rho * a + 2) < / (y * rho * b + 2))%R; [|lra]. apply Rinv_lt_contravar; [apply Rmult_lt_0_compat; lra|lra]. }
    assert (Hd' : (0 < delta')%R).
    { unfold delta'. apply Rdiv_lt_0_compat; [|lra]. specialize (Gap Hd).
      assert (2 * r 1%nat 0%nat = (a * x' - b * y') / den + (delta - (s0 - s1)))%R.
      { rewrite R0. assert (a * x' / den + b * y' / den = 1)%R by (unfold den; field; fold den; lra). unfold Rdiv in *. lra. }
      assert (0 < (a * x' - b * y') / den)%R by (apply Rdiv_lt_0_compat; [nra|lra]). lra. }
    split; [exact Hd'|]. split; [|exact Hxy']. rewrite !EX, M10', M11'. apply exp_increasing. lra.
  - intros Hd Hab Hxy. assert (Hxy' : x' = y') by (unfold x', y'; rewrite Hab, Hxy; reflexivity).
    assert (Hd' : (delta' = 0)%R).
    { unfold delta'. rewrite R0, (Gap0 Hd), Hd. specialize (Gap0 Hd). assert (s1 = 1 / 2)%R as -> by lra. unfold den. rewrite Hab, Hxy'. field. rewrite Hxy' in X0. split; nra. }
    split; [exact Hd'|]. split; [|exact Hxy']. rewrite !EX, M10', M11', Hd', Ropp_0. reflexivity.
Qed.

Definition ahead (delta a b x y : R) : Prop := (0 <= delta /\ b <= a /\ y <= x /\ b * y < a * x)%R.
Definition even (delta a b x y : R) : Prop := (delta = 0 /\ a = b /\ x = y)%R.
Lemma iter_shape W m : W 0 = no_words -> W 1 = word_doc -> forall s delta a b x y rho, shape s delta a b x y rho ->
  exists delta' a' b' x' y' rho', shape (Nat.iter m (step2 W) s) delta' a' b' x' y' rho' /\
  (ahead delta a b x y -> ahead delta' a' b' x' y' /\ (0 < m -> (b' < a' /\ y' < x')%R)) /\
  (even delta a b x y -> even delta' a' b' x' y').
Proof.
  intros W0 W1 s delta a b x y rho H. induction m as [|m IH].
  - exists delta, a, b, x, y, rho. split; [exact H|]. split; [intros; split; [assumption|lia]|]. tauto.
  - rewrite iter_succ_l. destruct IH as [d1 [a1 [b1 [x1 [y1 [r1 [S1 [I1 E1]]]]]]]].
    destruct (step_shape W _ _ _ _ _ _ _ W0 W1 S1) as [d2 [a2 [b2 [x2 [y2 [r2 [S2 [I2 E2]]]]]]]].
    exists d2, a2, b2, x2, y2, r2. split; [exact S2|].
    destruct S2 as [_ [_ [_ [Pa Pb]]] [_ [_ [Px Py]]] _ _]. split.
    + intros A. destruct (I1 A) as [[B1 [B2 [B3 B4]]] _]. destruct (I2 B1 B2 B3 B4) as [C1 [C2 C3]]. split; [repeat split; nra|intros _; split; assumption].
    + intros A. destruct (E1 A) as [B1 [B2 B3]]. apply E2; assumption.
Qed.
Lemma loop_shape W stop : W 0 = no_words -> W 1 = word_doc -> forall todo itr A s delta a b x y rho, 0 < todo -> shape s delta a b x y rho ->
  exists delta' a' b' x' y' rho',
  shape (snd (stm_loop 2 2 2 1 1 1 1 1 none none inv2 (fun _ _ => none) stop W none [0; 1]%Z itr todo A s)) delta' a' b' x' y' rho' /\
  (ahead delta a b x y -> ahead delta' a' b' x' y' /\ (b' < a' /\ y' < x')%R) /\ (even delta a b x y -> even delta' a' b' x' y').
Proof.
  intros W0 W1. induction todo as [|todo IH]; intros itr A s delta a b x y rho Ht H; [lia|]. cbn [stm_loop].
  assert (O : stm_outer 2 2 2 1 1 1 1 1 none none inv2 (fun _ _ => none) W none [0; 1]%Z s = (none, Nat.iter 10 (step2 W) s)).
  { unfold stm_outer. cbv zeta.
    assert (DA : (fun k f => none k f - vsum 1 (fun p => none k p * none p f))%R = none).
    { apply functional_extensionality. intros k. apply functional_extensionality. intros f. unfold none, vsum. cbn [seq map rsum]. ring. }
    rewrite DA. reflexivity. }
  rewrite O. clear O. destruct (iter_shape W 10 W0 W1 s _ _ _ _ _ _ H) as [d1 [a1 [b1 [x1 [y1 [r1 [S1 [I1 E1]]]]]]]].
  generalize dependent (Nat.iter 10 (step2 W) s). intros s1 S1.
  assert (Done : exists delta' a' b' x' y' rho', shape s1 delta' a' b' x' y' rho' /\
    (ahead delta a b x y -> ahead delta' a' b' x' y' /\ (b' < a' /\ y' < x')%R) /\ (even delta a b x y -> even delta' a' b' x' y')).
  { exists d1, a1, b1, x1, y1, r1. split; [exact S1|]. split; [|exact E1]. intros HA. destruct (I1 HA) as [I2 I3]. split; [exact I2|apply I3; lia]. }
  destruct (stop itr none s1); [exact Done|]. destruct todo as [|todo]; [exact Done|].
  destruct (IH (S itr) none s1 d1 a1 b1 x1 y1 r1 ltac:(lia) S1) as [d2 [a2 [b2 [x2 [y2 [r2 [S2 [I2 E2]]]]]]]].
  exists d2, a2, b2, x2, y2, r2. split; [exact S2|]. split; [|intros E; apply E2, E1, E].
  intros HA. destruct (I1 HA) as [I3 _]. destruct (I2 I3) as [I4 I5]. split; assumption.
Qed.

(** The documents in either order; every document has the same words, means, variances
    and topic weights in both. *)
Notation words_first iterations := (stm_train 2 2 2 1 1 1 1 1 none none inv2 (fun _ _ => none) argsort2 (fun _ _ _ => false) iterations
  (pair_rows word_doc no_words) none [1; 0]%Z none none half_vocab none (pair_rows even_weights uneven_weights) ones).
Notation words_last iterations := (stm_train 2 2 2 1 1 1 1 1 none none inv2 (fun _ _ => none) argsort2 (fun _ _ _ => false) iterations
  (pair_rows no_words word_doc) none [0; 1]%Z none none half_vocab none (pair_rows uneven_weights even_weights) ones).
Lemma words_first_run iterations o : words_first iterations = Ok o ->
  (r_vocab o 1%nat 0%nat < r_vocab o 0%nat 0%nat)%R /\ (r_exp o 1%nat 1%nat < r_exp o 1%nat 0%nat)%R /\ r_means o 1 0 = 0%R /\ r_means o 1 1 = 0%R.
Proof.
  intros E. unfold stm_train in E. change (argsort2 [1; 0]%Z) with [1; 0] in E. cbn [map nth] in E.
  change (rows [1; 0] none) with none in E.
  destruct iterations as [|iterations]; [destruct (stm_loop _ _ _ _ _ _ _ _ _ _ _ _ _ _ _ _ _ _ _ _); discriminate|].
  match type of E with context [stm_loop _ _ _ _ _ _ _ _ _ _ _ _ ?st ?w _ _ _ _ ?a ?s] => set (s0 := s) in E; set (W := w) in E end.
  assert (S0 : shape s0 0 2 1 (1 / 2) (1 / 2) 1).
  { constructor; cbn [s0 t_means t_exp t_vocab t_R t_varcs]; repeat split; unfold rows, none, half_vocab, ones; cbn; try lra; reflexivity. }
  destruct (loop_shape W (fun _ _ _ => false) eq_refl eq_refl (S iterations) 0 none s0 _ _ _ _ _ _ ltac:(lia) S0) as [d [a [b [x [y [r [Sh [I _]]]]]]]].
  destruct (stm_loop 2 2 2 1 1 1 1 1 none none inv2 (fun _ _ => none) (fun _ _ _ => false) W none [0; 1]%Z 0 (S iterations) none s0) as [A1 s1].
  cbn [snd Nat.eqb] in E, Sh. change (argsort2 (map Z.of_nat [1; 0])) with [1; 0] in E. inversion E; subst o; clear E.
  cbn [r_vocab r_exp r_means]. destruct I as [_ [I1 I2]]; [unfold ahead; lra|].
  destruct Sh as [[M0 [M1 _]] [E0 [E1 _]] [V0 [V1 _]] _ _]. rewrite V0, V1, E0, E1. unfold rows. cbn [nth]. repeat split; assumption.
Qed.
Lemma words_last_run iterations o : words_last iterations = Ok o -> r_vocab o 1 0 = r_vocab o 0 0.
Proof.
  intros E. unfold stm_train in E. change (argsort2 [0; 1]%Z) with [0; 1] in E. cbn [map nth] in E.
  change (rows [0; 1] none) with none in E.
  destruct iterations as [|iterations]; [destruct (stm_loop _ _ _ _ _ _ _ _ _ _ _ _ _ _ _ _ _ _ _ _); discriminate|].
  match type of E with context [stm_loop _ _ _ _ _ _ _ _ _ _ _ _ ?st ?w _ _ _ _ ?a ?s] => set (s0 := s) in E; set (W := w) in E end.
  assert (S0 : shape s0 0 1 1 (1 / 2) (1 / 2) 1).
  { constructor; cbn [s0 t_means t_exp t_vocab t_R t_varcs]; repeat split; unfold rows, none, half_vocab, ones; cbn; try lra; reflexivity. }
  destruct (loop_shape W (fun _ _ _ => false) eq_refl eq_refl (S iterations) 0 none s0 _ _ _ _ _ _ ltac:(lia) S0) as [d [a [b [x [y [r [Sh [_ I]]]]]]]].
  destruct (stm_loop 2 2 2 1 1 1 1 1 none none inv2 (fun _ _ => none) (fun _ _ _ => false) W none [0; 1]%Z 0 (S iterations) none s0) as [A1 s1].
  cbn [snd Nat.eqb] in E, Sh. inversion E; subst o; clear E. cbn [r_vocab]. destruct I as [_ [_ I]]; [unfold even; lra|].
  destruct Sh as [_ _ [V0 [V1 _]] _ _]. rewrite V0, V1. symmetry. exact I.
Qed.

(** The weights of the trained state are not those of the documents. *)
Theorem C61_weights_in_callers_order_refuted : forall iterations, 0 < iterations -> exists K D T F P beta fv lfv Y V inv lsq argsort W X docLens A sigT vocab means expMeans varcs o,
  length docLens = D /\ counts D T W (fun d => IZR (nth d docLens 0%Z)) /\ (forall l, length l = D -> sorts l (argsort l)) /\
  stm_train K D T F P beta fv lfv Y V inv lsq argsort (fun _ _ _ => false) iterations W X docLens A sigT vocab means expMeans varcs = Ok o /\
  exists d k, d < D /\ k < K /\ r_exp o d k <> exp_means K (r_means o) d k.
Proof.
  intros iterations Hi. assert (E : exists o, words_first iterations = Ok o) by (apply C61_training_succeeds; exact Hi). destruct E as [o E].
  exists 2, 2, 2, 1, 1, 1%R, 1%R, 1%R, none, none, inv2, (fun _ _ => none), argsort2, (pair_rows word_doc no_words), none, [1; 0]%Z, none, none, half_vocab, none,
    (pair_rows even_weights uneven_weights), ones, o.
  split; [reflexivity|]. split.
  { split; [intros d t _ _; unfold pair_rows, word_doc, no_words; destruct (d =? 0); [destruct (t =? 0)|]; lra|].
    intros d Hd. destruct d as [|[|]]; [| |lia]; unfold vsum, pair_rows, word_doc, no_words; cbn [seq map rsum Nat.eqb nth]; lra. }
  split; [apply argsort2_sorts|]. split; [exact E|].
  destruct (words_first_run iterations o E) as [_ [H [M0 M1]]].
  destruct (Req_dec (r_exp o 1 0) (exp_means 2 (r_means o) 1 0)) as [E0|N0]; [|exists 1, 0; repeat split; try lia; exact N0].
  exists 1, 1. repeat split; try lia. intros E1. rewrite E0, E1 in H. unfold exp_means in H. rewrite M0, M1 in H. lra.
Qed.
(** The same documents in another order are given other topics. *)
Theorem C61_order_of_documents_refuted : forall iterations, 0 < iterations -> exists K D T F P beta fv lfv Y V inv lsq argsort W X docLens A sigT vocab means expMeans varcs idx o o',
  length docLens = D /\ counts D T W (fun d => IZR (nth d docLens 0%Z)) /\ (forall l, length l = D -> sorts l (argsort l)) /\ order_free D lsq /\
  (forall k, k < K -> positive_dist T (vocab k)) /\ Permutation idx (seq 0 D) /\
  stm_train K D T F P beta fv lfv Y V inv lsq argsort (fun _ _ _ => false) iterations W X docLens A sigT vocab means expMeans varcs = Ok o /\
  stm_train K D T F P beta fv lfv Y V inv lsq argsort (fun _ _ _ => false) iterations (rows idx W) (rows idx X) (map (fun i => nth i docLens 0%Z) idx)
    A sigT vocab (rows idx means) (rows idx expMeans) (rows idx varcs) = Ok o' /\
  exists k t, k < K /\ t < T /\ r_vocab o k t <> r_vocab o' k t.
Proof.
  intros iterations Hi. assert (E : exists o, words_first iterations = Ok o) by (apply C61_training_succeeds; exact Hi). destruct E as [o E].
  assert (E' : exists o, words_last iterations = Ok o) by (apply C61_training_succeeds; exact Hi). destruct E' as [o' E'].
  exists 2, 2, 2, 1, 1, 1%R, 1%R, 1%R, none, none, inv2, (fun _ _ => none), argsort2, (pair_rows no_words word_doc), none, [0; 1]%Z, none, none, half_vocab, none,
    (pair_rows uneven_weights even_weights), ones, [1; 0], o', o.
  split; [reflexivity|]. split.
  { split; [intros d t _ _; unfold pair_rows, word_doc, no_words; destruct (d =? 0); [|destruct (t =? 0)]; lra|].
    intros d Hd. destruct d as [|[|]]; [| |lia]; unfold vsum, pair_rows, word_doc, no_words; cbn [seq map rsum Nat.eqb nth]; lra. }
  split; [apply argsort2_sorts|]. split; [intros ? ? ? ? ? _ _ _; reflexivity|].
  split; [intros k _; unfold half_vocab; split; [intros; lra|unfold vsum; cbn [seq map rsum]; lra]|].
  split; [apply perm_swap|]. split; [exact E'|].
  assert (RW : rows [1; 0] (pair_rows no_words word_doc) = pair_rows word_doc no_words).
  { apply functional_extensionality. intros [|[|[|]]]; reflexivity. }
  assert (RE : rows [1; 0] (pair_rows uneven_weights even_weights) = pair_rows even_weights uneven_weights).
  { apply functional_extensionality. intros [|[|[|]]]; reflexivity. }
  rewrite RW, RE. split; [exact E|].
  destruct (words_first_run iterations o E) as [H _]. pose proof (words_last_run iterations o' E') as H'.
  destruct (Req_dec (r_vocab o' 0 0) (r_vocab o 0 0)) as [E0|N0]; [|exists 0, 0; repeat split; try lia; exact N0].
  exists 1, 0. repeat split; try lia. intros E1. rewrite H', E0 in E1. lra.
Qed.

(** ** C137: how often each word is counted *)
(** The counts from which an update estimates the topics' words, over all topics. *)
Definition counted (K D : nat) (s : stm) (t : nat) : R :=
  vsum K (fun k => t_vocab s k t * vsum D (fun d => t_R s d t * t_exp s d k))%R.
Lemma counted_is K D s t : counted K D s t = vsum D (fun d => t_R s d t * vsum K (fun k => t_exp s d k * t_vocab s k t))%R.
Proof.
  unfold counted. rewrite (vsum_ext K _ (fun k => vsum D (fun d => t_R s d t * (t_exp s d k * t_vocab s k t)))%R)
    by (intros; rewrite <- vsum_scale; apply vsum_ext; intros; ring).
  rewrite (vsum_swap K D (fun k d => t_R s d t * (t_exp s d k * t_vocab s k t))%R). apply vsum_ext. intros. apply vsum_scale.
Qed.
(** An update after the first weighs each occurrence by the probability of the word
    under the new topic weights over that under the weights before. *)
Theorem C137_later_updates K D T F P beta fv lfv Y inv W X docLens A diffa s t :
  let s' := stm_inner K D T F P beta fv lfv Y inv W X docLens A diffa s in
  counted K D s' t = vsum D (fun d => W d t * (vsum K (fun k => t_exp s' d k * t_vocab s' k t) / vsum K (fun k => t_exp s d k * t_vocab s' k t)))%R.
Proof.
  intros s'. rewrite counted_is. apply vsum_ext. intros d _.
  assert (E : t_R s' d t = quotient K W (t_exp s) (t_vocab s') d t) by reflexivity. rewrite E. unfold quotient, Rdiv. ring.
Qed.
(** So each occurrence counts once if the weights have not changed. *)
Theorem C137_converged K D T F P beta fv lfv Y inv W X docLens A diffa s t : t < T ->
  let s' := stm_inner K D T F P beta fv lfv Y inv W X docLens A diffa s in
  covers K T (t_vocab s') -> (forall d k, d < D -> k < K -> t_exp s' d k = t_exp s d k /\ (0 < t_exp s d k)%R) ->
  counted K D s' t = vsum D (fun d => W d t).
Proof.
  intros Ht s' Hv He. unfold s'. rewrite C137_later_updates. fold s'. apply vsum_ext. intros d Hd.
  rewrite (vsum_ext K (fun k => t_exp s' d k * t_vocab s' k t)%R (fun k => t_exp s d k * t_vocab s' k t)%R) by (intros k Hk; destruct (He d k Hd Hk) as [-> _]; reflexivity).
  pose proof (weighted_pos K T (t_vocab s') Hv (t_exp s d) t (fun k Hk => proj2 (He d k Hd Hk)) Ht). field. lra.
Qed.
(** The first update uses the counts themselves, the next one old weights. *)
Definition first_state : stm := {| t_means := none; t_exp := pair_rows even_weights uneven_weights; t_varcs := ones; t_vocab := half_vocab;
  t_R := pair_rows no_words word_doc; t_sigT := none |}.
Lemma first_shape : shape first_state 0 2 1 (1 / 2) (1 / 2) 1.
Proof.
  constructor; cbn [first_state t_means t_exp t_vocab t_R t_varcs]; unfold none, pair_rows, no_words, word_doc, even_weights, uneven_weights, half_vocab, ones;
    cbn [Nat.eqb]; repeat split; lra.
Qed.
Lemma fold_max_ge l : forall x : R, (x <= fold_left Rmax l x)%R.
Proof. induction l as [|y l IH]; intros x; cbn [fold_left]; [lra|]. eapply Rle_trans; [apply Rmax_l|apply IH]. Qed.
Lemma inv2_inverts : inverts 2 inv2.
Proof.
  intros M HS HP. pose proof (HP (fun k => if k =? 0 then M 1%nat 1%nat else (- M 0%nat 1%nat)%R)) as Q. pose proof (HP (eye 1)) as Q1.
  unfold quad, vsum, eye in Q, Q1. cbn [seq map rsum Nat.eqb] in Q, Q1. pose proof (HS 0 1 ltac:(lia) ltac:(lia)) as S01.
  assert (P1 : (0 < M 1%nat 1%nat)%R). { assert (H : exists k, k < 2 /\ (if 1 =? k then 1%R else 0%R) <> 0%R) by (exists 1; cbn [Nat.eqb]; split; [lia|lra]). specialize (Q1 H). lra. }
  assert (H : exists k, k < 2 /\ (if k =? 0 then M 1%nat 1%nat else (- M 0%nat 1%nat)%R) <> 0%R) by (exists 0; cbn [Nat.eqb]; split; [lia|lra]).
  specialize (Q H). rewrite <- S01 in Q.
  assert (Det : (M 0%nat 0%nat * M 1%nat 1%nat - M 0%nat 1%nat * M 1%nat 0%nat <> 0)%R).
  { rewrite <- S01. intros Z.
    match type of Q with (0 < ?e)%R => replace e with (M 1%nat 1%nat * (M 0%nat 0%nat * M 1%nat 1%nat - M 0%nat 1%nat * M 0%nat 1%nat))%R in Q by ring end.
    rewrite Z in Q. lra. }
  split; [apply inv2_ok; exact Det|]. intros i j Hi Hj. unfold vsum. cbn [seq map rsum].
  destruct i as [|[|]]; [| |lia]; (destruct j as [|[|]]; [| |lia]); unfold inv2, eye; cbn [Nat.eqb]; field; exact Det.
Qed.
Lemma pair_counts : counts 2 2 (pair_rows no_words word_doc) (fun d => IZR (nth d [0; 1]%Z 0%Z)).
Proof.
  split; [intros d t _ _; unfold pair_rows, word_doc, no_words; destruct (d =? 0); [|destruct (t =? 0)]; lra|].
  intros d Hd. destruct d as [|[|]]; [| |lia]; unfold vsum, pair_rows, word_doc, no_words; cbn [seq map rsum Nat.eqb nth]; lra.
Qed.
Lemma first_sound : sound 2 2 2 first_state.
Proof.
  repeat split; cbn [first_state t_varcs t_exp t_R t_vocab].
  - intros; unfold ones; lra.
  - intros d k _ _. unfold pair_rows, even_weights, uneven_weights. destruct (d =? 0); [|destruct (k =? 0)]; lra.
  - apply pair_counts.
  - intros; unfold half_vocab; lra.
Qed.
Theorem C137_counts_each_occurrence_refuted : exists K D T F P beta fv lfv Y inv W X docLens A diffa s,
  inverts K inv /\ rising docLens /\ length docLens = D /\ counts D T W (fun d => IZR (nth d docLens 0%Z)) /\ sound K D T s /\ t_R s = W /\
  (exists t, t < T /\ counted K D s t <> vsum D (fun d => W d t)) /\
  (exists t, t < T /\ counted K D (stm_inner K D T F P beta fv lfv Y inv W X docLens A diffa s) t <> vsum D (fun d => W d t)).
Proof.
  exists 2, 2, 2, 1, 1, 1%R, 1%R, 1%R, none, inv2, (pair_rows no_words word_doc), none, [0; 1]%Z, none, none, first_state.
  split; [exact inv2_inverts|]. split; [intros i j Hij Hj; cbn [length] in Hj; assert (i = 0) by lia; assert (j = 1) by lia; subst; cbn [nth]; lia|].
  split; [reflexivity|]. split; [exact pair_counts|]. split; [exact first_sound|]. split; [reflexivity|]. split.
  - exists 0. split; [lia|]. unfold counted, vsum. cbn. unfold half_vocab, even_weights, no_words. lra.
  - exists 0. split; [lia|]. rewrite counted_is.
    destruct (step_shape (pair_rows no_words word_doc) first_state _ _ _ _ _ _ eq_refl eq_refl first_shape) as [d' [a' [b' [x' [y' [r' [Sh [I _]]]]]]]].
    set (s' := stm_inner 2 2 2 1 1 1 1 1 none inv2 (pair_rows no_words word_doc) none [0; 1]%Z none none first_state) in *.
    assert (Q : t_R s' 1 0 = quotient 2 (pair_rows no_words word_doc) (t_exp first_state) (t_vocab s') 1 0) by reflexivity.
    assert (EX : forall k, t_exp s' 1 k = exp (t_means s' 1%nat k - vmax 2 (t_means s' 1%nat))) by reflexivity.
    destruct Sh as [[M0 [M1 [M10 M11]]] [E0 [E1 [Pa Pb]]] [V0 [V1 [Px Py]]] [R0 [R1 [R10 [R11 Pr]]]] _].
    assert (L0 : (a' <= 1)%R). { rewrite <- E0, EX, <- exp_0. apply exp_le. unfold vmax. cbn [seq map]. pose proof (fold_max_ge [t_means s' 1 1] (t_means s' 1 0)). lra. }
    destruct I as [_ [L1 _]]; try lra.
    assert (Q' : r' = (1 / (2 * x' + 1 * y'))%R).
    { rewrite <- R10, Q. unfold quotient, pair_rows, word_doc, vsum. cbn [Nat.eqb seq map rsum]. rewrite V0, V1. cbn. unfold uneven_weights. cbn [Nat.eqb].
      f_equal. ring. }
    unfold vsum, pair_rows, word_doc, no_words. cbn [seq map rsum Nat.eqb]. rewrite R0, R10, E0, E1, V0, V1, Q'.
    intros H. assert (H' : (a' * x' + b' * y' = 2 * x' + y')%R).
    { apply (Rmult_eq_reg_l (1 / (2 * x' + 1 * y'))%R); [|apply Rgt_not_eq, Rdiv_lt_0_compat; lra].
      replace (1 / (2 * x' + 1 * y') * (2 * x' + y'))%R with 1%R by (field; lra). lra. }
    nra.
Qed.

(** ** Examples *)
Example C136_example : let s := {| t_means := none; t_exp := exp_means 2 none; t_varcs := ones; t_vocab := two_topics; t_R := pair_rows no_words word_doc; t_sigT := none |} in
  let s' := stm_inner 2 2 2 1 1 1 1 1 ones inv2 (pair_rows no_words word_doc) ones [0; 1]%Z ones none s in
  forall d, d < 2 -> let precision := fun i j => (isig_scale 2 1 1 * inv2 (t_sigT s') i j)%R in
  (log_posterior 2 2 (t_vocab s') (fun _ => 1) precision (pair_rows no_words word_doc d) (fun _ => 0)
   <= log_posterior 2 2 (t_vocab s') (fun _ => 1) precision (pair_rows no_words word_doc d) (t_means s' d))%R.
Proof.
  intros s s' d Hd precision.
  pose proof (C136_means_improve 2 2 2 1 1 1 1 1 ones inv2 (pair_rows no_words word_doc) ones [0; 1]%Z ones none ltac:(lia) ltac:(lia) ltac:(lra) ltac:(lra) ltac:(lra)
    inv2_inverts eq_refl pair_counts s d) as H. cbv zeta in H. fold s' in H.
  rewrite (functional_extensionality (fun k : nat => vsum 1 (fun f => ones d f * ones k f)%R) (fun _ => 1%R)) in H
    by (intros; unfold vsum, ones; cbn [seq map rsum]; ring).
  apply H; try exact Hd; try reflexivity.
  - intros i j Hij Hj; cbn [length] in Hj; assert (i = 0) by lia; assert (j = 1) by lia; subst; cbn [nth]; lia.
  - repeat split; cbn [s t_varcs t_exp t_R t_vocab].
    + intros; unfold ones; lra.
    + intros; apply exp_pos.
    + apply pair_counts.
    + intros k t Hk Ht. unfold two_topics. destruct (k =? t); lra.
Qed.
Example C61_example : exists o, words_first 3 = Ok o /\ r_lens o = [1; 0]%Z /\
  (forall i, i < 2 -> r_exp o i = exp_means 2 (r_means o) (1 - i)) /\ (forall k, k < 2 -> positive_dist 2 (r_vocab o k)).
Proof.
  assert (E : exists o, words_first 3 = Ok o) by (apply C61_training_succeeds; lia). destruct E as [o E]. exists o. split; [exact E|]. split; [|split].
  - destruct (C61_training_in_callers_order 2 2 2 1 1 1 1 1 none none inv2 (fun _ _ => none) argsort2 (pair_rows word_doc no_words) none [1; 0]%Z (fun _ _ _ => false) 3 none none half_vocab none (pair_rows even_weights uneven_weights) ones o eq_refl
      (argsort2_sorts [1; 0]%Z eq_refl) (argsort2_sorts [1; 0]%Z eq_refl) ltac:(intros ? ? ? ? ? _ _ _; reflexivity) E) as [pos [_ [m [_ [_ H]]]]].
    cbv zeta in H. match type of H with context [plain_train ?a ?b ?c ?d ?e ?f ?g ?h ?i ?j ?k ?l ?m ?n ?o ?p ?q ?r] =>
      destruct (plain_train a b c d e f g h i j k l m n o p q r) as [A' s'] end. apply H.
  - intros i Hi. rewrite (C61_weights_stay_sorted 2 2 2 1 1 1 1 1 none none inv2 (fun _ _ => none) argsort2 (pair_rows word_doc no_words) none [1; 0]%Z (fun _ _ _ => false) 3 none none half_vocab none (pair_rows even_weights uneven_weights) ones o eq_refl
      (argsort2_sorts [1; 0]%Z eq_refl) (argsort2_sorts [1; 0]%Z eq_refl) E i Hi). destruct i as [|[|]]; [| |lia]; reflexivity.
  - apply (C64_stm_vocabulary 2 2 2 1 1 1 1 1 none none inv2 (fun _ _ => none) argsort2 (pair_rows word_doc no_words) none [1; 0]%Z (fun _ _ _ => false) 3 none none half_vocab none (pair_rows even_weights uneven_weights) ones o ltac:(lia) ltac:(lia) ltac:(lra) ltac:(lra) ltac:(lra)
      inv2_inverts eq_refl) with (6 := E).
    + split; [intros d t _ _; unfold pair_rows, word_doc, no_words; destruct (d =? 0); [destruct (t =? 0)|]; lra|].
      intros d Hd. destruct d as [|[|]]; [| |lia]; unfold vsum, pair_rows, word_doc, no_words; cbn [seq map rsum Nat.eqb nth]; lra.
    + apply argsort2_sorts; reflexivity.
    + intros; unfold half_vocab; lra.
    + intros d k _ _. unfold pair_rows, even_weights, uneven_weights. destruct (d =? 0); [|destruct (k =? 0)]; lra.
    + intros; unfold ones; lra.
Qed.

Print Assumptions C61_training_in_callers_order.
Print Assumptions C61_weights_stay_sorted.
Print Assumptions C61_no_iterations.
Print Assumptions C61_training_succeeds.
Print Assumptions C136_means_improve.
Print Assumptions C64_stm_vocabulary.
Print Assumptions C61_weights_in_callers_order_refuted.
Print Assumptions C61_order_of_documents_refuted.
Print Assumptions C137_later_updates.
Print Assumptions C137_converged.
Print Assumptions C137_counts_each_occurrence_refuted.
