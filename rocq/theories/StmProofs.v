(** * Lemmas about the training of the side topic model. *)
From Coq Require Import List Reals ZArith Arith Bool Lra Lia Sorted Permutation FunctionalExtensionality.
From Verif Require Import Base RealModel RealProofs VbModel VbProofs LinkModel CtmModel CtmProofs StmModel.
Import ListNotations.
Open Scope nat_scope.

(** ** Specification *)
(** What np.argsort returns: an order of the positions in which the values do not fall. *)
Definition sorts (l : list Z) (idx : list nat) : Prop :=
  Permutation idx (seq 0 (length l)) /\
  forall i j, i < j -> j < length l -> (nth (nth i idx 0%nat) l 0 <= nth (nth j idx 0%nat) l 0)%Z.
(** A solver that does not depend on the order of the equations. *)
Definition order_free (D : nat) (lsq : mat -> mat -> mat) : Prop := forall idx X M X' M',
  Permutation idx (seq 0 D) -> (forall i, i < D -> X' i = X (nth i idx 0)) -> (forall i, i < D -> M' i = M (nth i idx 0)) ->
  lsq X' M' = lsq X M.

(** Training without sorting, in the caller's order, one document at a time with its own
    length. *)
Section plain.
  Variables K D T F P : nat.
  Variables beta fv lfv : R.
  Variables Y V : mat.
  Variable inv : mat -> mat.
  Variable lsq : mat -> mat -> mat.
  Variables W X : mat.
  Variable n : vec.

  Definition plain_inner (A diffa : mat) (s : stm) : stm :=
    let sigT := stm_sigT D F P fv lfv Y X A diffa (t_means s) (t_varcs s) in
    let isigT := inv sigT in
    let vocab := stm_vocab D T beta (t_R s) (t_exp s) (t_vocab s) in
    let r := stm_rhs K D F P X A isigT (token_weights K T W (t_exp s) vocab) n (t_means s) in
    let means := fun d k => vsum K (fun j => r d j * (inv (fun i j => isigT i j + sig_scale D F P * n d * bohning K i j) j k * sig_scale D F P))%R in
    {| t_means := means; t_exp := exp_means K means;
       t_varcs := fun d k => (1 / (n d * (INR K - 1) / INR K + isig_scale D F P * isigT k k))%R;
       t_vocab := vocab; t_R := quotient K W (t_exp s) vocab; t_sigT := sigT |}.
  Definition plain_outer (s : stm) : mat * stm :=
    let A := lsq X (t_means s) in
    let diffa := fun k f => (A k f - vsum P (fun p => Y k p * V p f))%R in
    (A, Nat.iter 10 (plain_inner A diffa) s).
  Definition plain_train (iterations : nat) (A : mat) (s : stm) : mat * stm :=
    Nat.iter iterations (fun r => plain_outer (snd r)) (A, s).
End plain.

(** ** Permuted sums *)
Lemma rsum_permuted l l' : Permutation l l' -> rsum l = rsum l'.
Proof. induction 1; cbn [rsum]; lra. Qed.
Lemma vsum_permuted D idx (f : vec) : Permutation idx (seq 0 D) -> vsum D (fun i => f (nth i idx 0)) = vsum D f.
Proof.
  intros HP. unfold vsum.
  assert (L : length idx = D) by (rewrite (Permutation_length HP); apply seq_length).
  rewrite <- (map_map (fun i => nth i idx 0) f). replace (map (fun i => nth i idx 0) (seq 0 D)) with idx.
  - apply rsum_permuted. apply Permutation_map. exact HP.
  - rewrite <- L. apply list_nth_seq.
Qed.
Lemma perm_lt D idx i : Permutation idx (seq 0 D) -> i < D -> nth i idx 0 < D.
Proof.
  intros HP Hi. assert (L : length idx = D) by (rewrite (Permutation_length HP); apply seq_length).
  assert (In (nth i idx 0) (seq 0 D)) by (apply (Permutation_in _ HP), nth_In; lia). apply in_seq in H. lia.
Qed.

(** ** np.unique *)
Lemma insert_in x l y : In y (insert_unique x l) <-> y = x \/ In y l.
Proof.
  induction l as [|z l IH]; cbn [insert_unique In]; [intuition|].
  destruct (Z.ltb_spec x z); [cbn [In]; intuition|]. destruct (Z.eqb_spec x z) as [->|]; [cbn [In]; intuition|].
  cbn [In]. rewrite IH. intuition.
Qed.
Lemma insert_sorted x l : StronglySorted Z.lt l -> StronglySorted Z.lt (insert_unique x l).
Proof.
  induction 1 as [|z l Hs IH Hz]; cbn [insert_unique]; [constructor; [constructor|constructor]|].
  destruct (Z.ltb_spec x z).
  - constructor; [constructor; assumption|]. constructor; [exact H|]. rewrite Forall_forall in Hz |- *. intros y Hy. specialize (Hz y Hy). lia.
  - destruct (Z.eqb_spec x z) as [->|]; [constructor; assumption|]. constructor; [exact IH|].
    rewrite Forall_forall in Hz |- *. intros y Hy. apply insert_in in Hy. destruct Hy as [->|Hy]; [lia|apply Hz; exact Hy].
Qed.
Lemma unique_in l y : In y (unique l) <-> In y l.
Proof. induction l as [|x l IH]; [reflexivity|]. cbn [unique fold_right]. fold (unique l). rewrite insert_in, IH. cbn [In]. intuition. Qed.
Lemma unique_sorted l : StronglySorted Z.lt (unique l).
Proof. induction l as [|x l IH]; [constructor|]. apply insert_sorted. exact IH. Qed.

Definition rising (l : list Z) : Prop := forall i j, i < j -> j < length l -> (nth i l 0 <= nth j l 0)%Z.
Lemma first_index_lt x l : In x l -> first_index x l < length l /\ nth (first_index x l) l 0%Z = x /\
  forall i, i < first_index x l -> nth i l 0%Z <> x.
Proof.
  induction l as [|y l IH]; intros H; [contradiction|]. cbn [first_index length]. destruct (Z.eqb_spec x y) as [->|N].
  - split; [lia|]. split; [reflexivity|]. intros; lia.
  - destruct H as [->|H]; [contradiction|]. destruct (IH H) as [A [B C]]. split; [lia|]. split; [exact B|].
    intros [|i] Hi; cbn [nth]; [congruence|]. apply C. lia.
Qed.
Lemma first_index_le x l d : rising l -> In x l -> d < length l -> first_index x l <= d <-> (x <= nth d l 0)%Z.
Proof.
  intros HR Hx Hd. destruct (first_index_lt x l Hx) as [A [B C]]. split; intros H.
  - destruct (Nat.eq_dec (first_index x l) d) as [<-|]; [lia|]. rewrite <- B at 1. apply HR; lia.
  - destruct (Nat.le_gt_cases (first_index x l) d) as [|G]; [assumption|exfalso].
    pose proof (HR d (first_index x l) G A). apply (C d G). lia.
Qed.

Section blocks.
  Variables (K D F P : nat) (inv : mat -> mat) (isigT r : mat) (l : list Z).
  Hypothesis HR : rising l.
  Hypothesis HD : length l = D.
  Notation blocks vs m := (stm_blocks K D F P inv isigT r vs (map (fun x => first_index x l) vs ++ [D]) m).
  Lemma blocks_cons v vs m : blocks (v :: vs) m =
    blocks vs (stm_block K D F P inv isigT r v (first_index v l) (hd D (map (fun x => first_index x l) vs)) m).
  Proof. destruct vs; reflexivity. Qed.
  Lemma blocks_untouched : forall vs m d, d < D -> StronglySorted Z.lt vs -> (forall v, In v vs -> In v l /\ (nth d l 0 < v)%Z) -> blocks vs m d = m d.
  Proof.
    induction vs as [|v vs IH]; intros m d Hd Hs H; [reflexivity|]. rewrite blocks_cons. apply StronglySorted_inv in Hs as [Hs' Hv].
    rewrite IH; [|assumption|assumption|intros w Hw; apply H; right; exact Hw].
    apply functional_extensionality. intros k. unfold stm_block. destruct (H v (or_introl eq_refl)) as [Hin Hlt].
    destruct (Nat.leb_spec (first_index v l) d) as [G|]; [|reflexivity].
    apply (first_index_le v l d HR Hin ltac:(lia)) in G. lia.
  Qed.
  Lemma blocks_row : forall vs m d k, d < D -> StronglySorted Z.lt vs -> (forall v, In v vs -> In v l) -> In (nth d l 0%Z) vs ->
    blocks vs m d k = vsum K (fun j => r d j * (inv (fun i j => isigT i j + sig_scale D F P * IZR (nth d l 0%Z) * bohning K i j) j k * sig_scale D F P))%R.
  Proof.
    induction vs as [|v vs IH]; intros m d k Hd Hs H Hin; [contradiction|]. rewrite blocks_cons. apply StronglySorted_inv in Hs as [Hs' Hv].
    rewrite Forall_forall in Hv.
    destruct (in_dec Z.eq_dec (nth d l 0%Z) vs) as [Hi|Hn].
    - apply IH; [assumption|assumption|intros w Hw; apply H; right; exact Hw|exact Hi].
    - destruct Hin as [E|Hin]; [|contradiction]. rewrite blocks_untouched; [|assumption|assumption|].
      + unfold stm_block. destruct (Nat.leb_spec (first_index v l) d) as [_|G].
        2:{ exfalso. assert (first_index v l <= d); [|lia]. apply first_index_le; [exact HR|apply H; left; reflexivity|lia|lia]. }
        replace (d <? hd D (map (fun x => first_index x l) vs)) with true; [rewrite <- E; reflexivity|].
        symmetry. apply Nat.ltb_lt. destruct vs as [|w vs]; cbn [map hd]; [assumption|].
        destruct (Nat.le_gt_cases (first_index w l) d) as [G|]; [exfalso|assumption].
        apply first_index_le in G; [|exact HR|apply H; right; left; reflexivity|lia].
        specialize (Hv w (or_introl eq_refl)). lia.
      + intros w Hw. split; [apply H; right; exact Hw|]. rewrite <- E. apply Hv. exact Hw.
  Qed.
  Lemma blocks_all m d k : d < D ->
    blocks (unique l) m d k = vsum K (fun j => r d j * (inv (fun i j => isigT i j + sig_scale D F P * IZR (nth d l 0%Z) * bohning K i j) j k * sig_scale D F P))%R.
  Proof.
    intros Hd. apply blocks_row; [exact Hd|apply unique_sorted|intros v Hv; apply (unique_in l); exact Hv|].
    apply unique_in. apply nth_In. lia.
  Qed.
End blocks.

(** ** Sorted training follows training without sorting *)
Section refinement.
  Variables K D T F P : nat.
  Variables beta fv lfv : R.
  Variables Y V : mat.
  Variable inv : mat -> mat.
  Variable lsq : mat -> mat -> mat.
  Variables W X : mat.
  Variable docLens : list Z.
  Variable idx : list nat.
  Hypothesis HD : length docLens = D.
  Hypothesis HS : sorts docLens idx.
  Hypothesis HL : order_free D lsq.
  Let sorted := map (fun i => nth i docLens 0%Z) idx.
  Let n : vec := fun d => IZR (nth d docLens 0%Z).
  Let HP : Permutation idx (seq 0 D).
  Proof. destruct HS as [H _]. rewrite HD in H. exact H. Qed.
  Let Hlen : length idx = D.
  Proof. rewrite (Permutation_length HP). apply seq_length. Qed.

  Lemma sorted_nth i : i < D -> nth i sorted 0%Z = nth (nth i idx 0) docLens 0%Z.
  Proof. clear -Hlen. intros Hi. unfold sorted. rewrite (nth_indep _ 0%Z (nth 0 docLens 0%Z)) by (rewrite map_length; lia). exact (map_nth (fun i => nth i docLens 0%Z) idx 0 i). Qed.
  Lemma sorted_rising : rising sorted.
  Proof.
    intros i j Hij Hj. unfold sorted in Hj. rewrite map_length in Hj.
    rewrite !sorted_nth by lia. destruct HS as [_ H]. apply H; lia.
  Qed.

  (** Row [i] of the sorted arrays is the row of the i-th shortest document. *)
  Definition follows (s p : stm) : Prop :=
    (forall i, i < D -> t_means s i = t_means p (nth i idx 0) /\ t_exp s i = t_exp p (nth i idx 0) /\
                        t_varcs s i = t_varcs p (nth i idx 0) /\ t_R s i = t_R p (nth i idx 0)) /\
    t_vocab s = t_vocab p.
  Lemma follows_inner A diffa s p : follows s p ->
    follows (stm_inner K D T F P beta fv lfv Y inv (rows idx W) (rows idx X) sorted A diffa s)
            (plain_inner K D T F P beta fv lfv Y inv W X n A diffa p) /\
    t_sigT (stm_inner K D T F P beta fv lfv Y inv (rows idx W) (rows idx X) sorted A diffa s)
    = t_sigT (plain_inner K D T F P beta fv lfv Y inv W X n A diffa p).
  Proof.
    intros [HF HV].
    assert (ES : stm_sigT D F P fv lfv Y (rows idx X) A diffa (t_means s) (t_varcs s) = stm_sigT D F P fv lfv Y X A diffa (t_means p) (t_varcs p)).
    { apply functional_extensionality. intros i. apply functional_extensionality. intros j. unfold stm_sigT. f_equal; [f_equal|].
      - rewrite <- (vsum_permuted D idx (fun d => (t_means p d i - vsum F (fun f => X d f * A i f)) * (t_means p d j - vsum F (fun f => X d f * A j f)))%R HP).
        apply vsum_ext. intros d Hd. destruct (HF d Hd) as [-> _]. reflexivity.
      - destruct (i =? j); [|reflexivity]. rewrite <- (vsum_permuted D idx (fun d => t_varcs p d i) HP).
        apply vsum_ext. intros d Hd. destruct (HF d Hd) as [_ [_ [-> _]]]. reflexivity. }
    assert (EV : stm_vocab D T beta (t_R s) (t_exp s) (t_vocab s) = stm_vocab D T beta (t_R p) (t_exp p) (t_vocab p)).
    { unfold stm_vocab. f_equal. apply functional_extensionality. intros k. apply functional_extensionality. intros t. rewrite HV. do 2 f_equal.
      rewrite <- (vsum_permuted D idx (fun d => t_R p d t * t_exp p d k)%R HP).
      apply vsum_ext. intros d Hd. destruct (HF d Hd) as [_ [-> [_ ->]]]. reflexivity. }
    unfold stm_inner, plain_inner. cbv zeta. rewrite ES, EV.
    set (isigT := inv (stm_sigT D F P fv lfv Y X A diffa (t_means p) (t_varcs p))). set (vocab := stm_vocab D T beta (t_R p) (t_exp p) (t_vocab p)).
    assert (EM : forall d, d < D ->
      stm_blocks K D F P inv isigT
        (stm_rhs K D F P (rows idx X) A isigT (token_weights K T (rows idx W) (t_exp s) vocab) (fun d => IZR (nth d sorted 0%Z)) (t_means s))
        (unique sorted) (map (fun x => first_index x sorted) (unique sorted) ++ [D]) (fun d => vsoftmax K (t_means s d)) d
      = (fun k => vsum K (fun j => stm_rhs K D F P X A isigT (token_weights K T W (t_exp p) vocab) n (t_means p) (nth d idx 0%nat) j *
            (inv (fun i j => isigT i j + sig_scale D F P * n (nth d idx 0%nat) * bohning K i j) j k * sig_scale D F P)))%R).
    { intros d Hd. apply functional_extensionality. intros k.
      rewrite (blocks_all K D F P inv isigT _ sorted sorted_rising) by (try exact Hd; unfold sorted; rewrite map_length; exact Hlen).
      rewrite sorted_nth by exact Hd. fold (n (nth d idx 0)). apply vsum_ext. intros j _. f_equal.
      unfold stm_rhs. rewrite sorted_nth by exact Hd. fold (n (nth d idx 0)). destruct (HF d Hd) as [-> [Hex _]].
      unfold token_weights, quotient, rows. rewrite Hex. reflexivity. }
    split; [split; [|reflexivity]|reflexivity]. intros i Hi. cbn [t_means t_exp t_varcs t_R]. specialize (EM i Hi). repeat split.
    - rewrite EM. reflexivity.
    - unfold exp_means at 1. apply functional_extensionality. intros k. rewrite EM. reflexivity.
    - apply functional_extensionality. intros k. rewrite sorted_nth by exact Hi. reflexivity.
    - unfold quotient, rows. destruct (HF i Hi) as [_ [-> _]]. reflexivity.
  Qed.
  Lemma follows_iter A diffa m s p : 0 < m -> follows s p ->
    let s' := Nat.iter m (stm_inner K D T F P beta fv lfv Y inv (rows idx W) (rows idx X) sorted A diffa) s in
    let p' := Nat.iter m (plain_inner K D T F P beta fv lfv Y inv W X n A diffa) p in
    follows s' p' /\ t_sigT s' = t_sigT p'.
  Proof.
    intros Hm HF. induction m as [|m IH]; [lia|]. cbn [Nat.iter nat_rect]. destruct m as [|m]; [apply follows_inner; exact HF|].
    destruct (IH ltac:(lia)) as [IH1 _]. apply follows_inner. exact IH1.
  Qed.
  Lemma follows_outer s p : follows s p ->
    let '(A, s') := stm_outer K D T F P beta fv lfv Y V inv lsq (rows idx W) (rows idx X) sorted s in
    let '(A', p') := plain_outer K D T F P beta fv lfv Y V inv lsq W X n p in
    A = A' /\ follows s' p' /\ t_sigT s' = t_sigT p'.
  Proof.
    intros HF. unfold stm_outer, plain_outer.
    assert (EA : lsq (rows idx X) (t_means s) = lsq X (t_means p)).
    { apply (HL idx X (t_means p) (rows idx X) (t_means s) HP); [reflexivity|]. intros i Hi. apply HF. exact Hi. }
    rewrite EA. split; [reflexivity|]. apply follows_iter; [lia|exact HF].
  Qed.
  Lemma follows_loop stop : forall todo itr A s A0 p, 0 < todo -> follows s p ->
    exists m, 1 <= m <= todo /\ ((forall i A s, stop i A s = false) -> m = todo) /\
      let '(A', s') := stm_loop K D T F P beta fv lfv Y V inv lsq stop (rows idx W) (rows idx X) sorted itr todo A s in
      let '(A'', p') := plain_train K D T F P beta fv lfv Y V inv lsq W X n m A0 p in
      A' = A'' /\ follows s' p' /\ t_sigT s' = t_sigT p'.
  Proof.
    induction todo as [|todo IH]; intros itr A s A0 p Hm HF; [lia|]. cbn [stm_loop].
    pose proof (follows_outer s p HF) as HO.
    destruct (stm_outer K D T F P beta fv lfv Y V inv lsq (rows idx W) (rows idx X) sorted s) as [A1 s1].
    destruct (plain_outer K D T F P beta fv lfv Y V inv lsq W X n p) as [A2 p1] eqn:EP. destruct HO as [EA [HF1 ESg]].
    assert (One : exists m, 1 <= m <= 1 /\ let '(A'', p') := plain_train K D T F P beta fv lfv Y V inv lsq W X n m A0 p in
                    A1 = A'' /\ follows s1 p' /\ t_sigT s1 = t_sigT p').
    { exists 1. split; [lia|]. unfold plain_train. cbn [Nat.iter nat_rect snd]. rewrite EP. repeat split; try assumption; apply HF1; assumption. }
    destruct (stop itr A1 s1) eqn:Est.
    - destruct One as [m [Hm1 Ho]]. exists m. split; [lia|]. split; [intros Hst; rewrite Hst in Est; discriminate|]. exact Ho.
    - destruct todo as [|todo].
      + destruct One as [m [Hm1 Ho]]. exists m. split; [lia|]. split; [intros _; lia|]. cbn [stm_loop]. exact Ho.
      + destruct (IH (S itr) A1 s1 A2 p1 ltac:(lia) HF1) as [m [Hm1 [Hst Ho]]]. exists (S m). split; [lia|]. split; [intros Q; rewrite (Hst Q); reflexivity|].
        assert (E : plain_train K D T F P beta fv lfv Y V inv lsq W X n (S m) A0 p = plain_train K D T F P beta fv lfv Y V inv lsq W X n m A2 p1).
        { unfold plain_train. clear -EP. induction m as [|m IHm]; [cbn; exact EP|].
          change (Nat.iter (S (S m)) (fun r : mat * stm => plain_outer K D T F P beta fv lfv Y V inv lsq W X n (snd r)) (A0, p))
            with (plain_outer K D T F P beta fv lfv Y V inv lsq W X n (snd (Nat.iter (S m) (fun r : mat * stm => plain_outer K D T F P beta fv lfv Y V inv lsq W X n (snd r)) (A0, p)))).
          rewrite IHm. reflexivity. }
        rewrite E. exact Ho.
  Qed.
End refinement.
