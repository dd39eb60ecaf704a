(** * C255-C263: the modules that run/__main__.py does not import. *)
From Coq Require Import List String Reals ZArith Arith Bool Lra Lia.
From Verif Require Import Base RealModel RealProofs UvModel CopyModel CopyProps VbModel LinkModel CtmModel EarlyModel.
From Verif Require MixProofs MixProps.
From Verif Require Import VbProofs LinkProps CtmProofs CtmProps.
Import ListNotations.
Open Scope nat_scope.
Open Scope list_scope.

(** ** C255: ctm_bohning_fast trains like ctm_bohning *)
Theorem C255_same : forall K D T W n beta inv diagonal stop iterations s, diagonal = true \/ D = K ->
  fast_train K D T W n beta inv diagonal stop iterations s = ctm_train K D T W n beta inv diagonal stop iterations s.
Proof.
  intros K D T W n beta inv diagonal stop iterations s H. unfold fast_train, ctm_train. generalize 0 as itr.
  assert (E : forall s, fast_iter K D T W n beta inv diagonal s = train_iter K D T W n beta inv diagonal s).
  { intros s0. unfold fast_iter, train_iter. destruct (negb diagonal && (D <? 2)); [reflexivity|]. cbv zeta. destruct (D =? 1); [reflexivity|].
    destruct diagonal; [reflexivity|]. destruct H as [H|H]; [discriminate H|]. rewrite (proj2 (Nat.eqb_eq _ _) H). reflexivity. }
  revert s. induction iterations as [|todo IH]; intros s itr; [reflexivity|]. cbn [fast_loop train_loop]. rewrite E.
  destruct (train_iter _ _ _ _ _ _ _ _ s) as [s1|e]; [|reflexivity]. cbn [bind]. destruct (stop itr s1); [reflexivity|]. apply IH.
Qed.
(** Without the option that makes it approximate, it fails on every other corpus, on which
    ctm_bohning does not. *)
Theorem C255_other_sizes_refuted : forall K D T W n beta inv stop iterations s, D <> K -> 2 <= D -> 0 < iterations ->
  fast_train K D T W n beta inv false stop iterations s = Raise ValueError /\
  exists s', ctm_train K D T W n beta inv false stop iterations s = Ok s'.
Proof.
  intros K D T W n beta inv stop iterations s HK HD HI. split.
  - destruct iterations as [|todo]; [lia|]. unfold fast_train. cbn [fast_loop]. unfold fast_iter.
    replace (D <? 2) with false by (symmetry; apply Nat.ltb_ge; lia). cbn [negb andb]. cbv zeta.
    replace (D =? 1) with false by (symmetry; apply Nat.eqb_neq; lia). rewrite (proj2 (Nat.eqb_neq _ _) HK). reflexivity.
  - apply C132_training_succeeds; [lia|right; lia].
Qed.
Example C255_case :
  fast_train 2 3 1 (fun _ _ => 1%R) (fun _ => 1%R) 1 (fun M => M) false (fun _ _ => false) 5
    {| c_mean := fun _ => 0%R; c_sigT := eye; c_vocab := fun _ _ => 1%R; c_means := fun _ _ => 0%R; c_exp := fun _ _ => 1%R; c_varcs := fun _ _ => 1%R |}
  = Raise ValueError.
Proof. apply C255_other_sizes_refuted; lia. Qed.

(** ** Lemmas about the training of mtm *)
Lemma rs_cons x l : rsum (x :: l) = (x + rsum l)%R.
Proof. reflexivity. Qed.
Section lemmas.
  Context (K D T Q : nat) (W L : mat) (n : vec) (beta : R) (psi : R -> R) (inv : mat -> res mat) (U V : mat).
  Notation step := (doc_step K D T Q W L n psi inv U V).
  Notation run := (docs K D T Q W L n psi inv U V).
  Notation iter := (mtm1_iter K D T Q W L n beta psi inv U V).
  Notation loop := (mtm1_loop K D T Q W L n beta psi inv U V).
  Notation train := (mtm1_train K D T Q W L n beta psi inv U V).

  Lemma step_ok P words c maxes etop lse d s r : step P words c maxes etop lse d s = Ok r ->
    D <> 1 /\ exists post, inv (precision K D L n P c d) = Ok post /\
      let new := fun k => vsum K (fun j => post k j * right_side K D T Q W n psi U V P words c maxes etop (d_bytop s) (d_topics s) d j)%R in
      let off := fun k => (new k - prior_mean Q U V d k)%R in
      r = {| d_topics := set_row (d_topics s) d new;
             d_post := set_row (d_post s) d (fun k => post k k);
             d_bytop := fun k => (d_bytop s k - d_topics s d k + new k)%R;
             d_maxes := vmaximum (d_maxes s) new;
             d_in := vplus (d_in s) (fun k => vsum D (fun l => link_share K lse (d_topics s) d l k * L d l)%R);
             d_newcov := fun i j => (d_newcov s i j + off i * off j + post j j)%R;
             d_words := fun k t => (d_words s k t + W d t * word_share K T psi words (d_topics s) d t k)%R |}.
  Proof.
    unfold doc_step. destruct (D =? 1) eqn:E; [discriminate|]. apply Nat.eqb_neq in E. destruct (inv _) as [post|e] eqn:I; [|discriminate].
    cbn [bind]. intros X. injection X as <-. split; [exact E|]. exists post. split; reflexivity.
  Qed.

  Lemma run_words P words c maxes etop lse t ds : 0 < K -> forall s r, run P words c maxes etop lse ds s = Ok r ->
    vsum K (fun k => d_words r k t) = (vsum K (fun k => d_words s k t) + rsum (map (fun d => W d t) ds))%R.
  Proof.
    intros HK. induction ds as [|d ds IH]; intros s r H; cbn [docs] in H.
    - injection H as <-. cbn. lra.
    - destruct (step _ _ _ _ _ _ d s) as [s1|e] eqn:E; [|discriminate]. cbn [bind] in H. rewrite (IH s1 r H). apply step_ok in E as (_ & post & _ & E).
      cbv zeta in E. rewrite E. cbn [d_words map]. rewrite vsum_plus, vsum_scale. unfold word_share at 1. rewrite vsoftmax_sum by exact HK. rewrite rs_cons. lra.
  Qed.
  Lemma run_words_low P words c maxes etop lse k t lo ds : 0 < K -> (forall d, In d ds -> (0 <= W d t)%R) -> forall s r,
    run P words c maxes etop lse ds s = Ok r -> (lo <= d_words s k t)%R -> (lo <= d_words r k t)%R.
  Proof.
    intros HK HW. induction ds as [|d ds IH]; intros s r H HS; cbn [docs] in H.
    - injection H as <-. exact HS.
    - destruct (step _ _ _ _ _ _ d s) as [s1|e] eqn:E; [|discriminate]. cbn [bind] in H. apply (IH (fun e He => HW e (or_intror He)) s1 r H).
      apply step_ok in E as (_ & post & _ & E). cbv zeta in E. rewrite E. cbn [d_words].
      assert (0 <= W d t * word_share K T psi words (d_topics s) d t k)%R; [|lra].
      apply Rmult_le_pos; [apply HW; left; reflexivity|]. left. apply vsoftmax_pos. exact HK.
  Qed.
  Lemma run_in P words c maxes etop lse ds : 0 < K -> forall s r, run P words c maxes etop lse ds s = Ok r ->
    vsum K (d_in r) = (vsum K (d_in s) + rsum (map (fun d => vsum D (L d)) ds))%R.
  Proof.
    intros HK. induction ds as [|d ds IH]; intros s r H; cbn [docs] in H.
    - injection H as <-. cbn. lra.
    - destruct (step _ _ _ _ _ _ d s) as [s1|e] eqn:E; [|discriminate]. cbn [bind] in H. rewrite (IH s1 r H). apply step_ok in E as (_ & post & _ & E).
      cbv zeta in E. rewrite E. cbn [d_in map]. rewrite rs_cons. unfold vplus. rewrite vsum_plus, vsum_swap.
      rewrite (vsum_ext D _ (L d)); [lra|]. intros l Hl. rewrite vsum_scale_r. unfold link_share. rewrite vsoftmax_sum by exact HK. lra.
  Qed.
  Lemma vsum_set_row m d v k : d < D -> vsum D (fun e => set_row m d v e k) = (vsum D (fun e => m e k) - m d k + v k)%R.
  Proof.
    intros HD. unfold set_row.
    transitivity (vsum D (fun e => m e k + (if e =? d then 1 else 0) * (v k - m d k))%R).
    - apply vsum_ext. intros e He. destruct (Nat.eqb_spec e d) as [->|]; lra.
    - rewrite vsum_plus, vsum_scale_r.
      assert (E : vsum D (fun e => if e =? d then 1 else 0)%R = 1%R).
      { clear -HD. unfold vsum. assert (G : forall a m, a <= d -> d < a + m -> rsum (map (fun e => if e =? d then 1 else 0)%R (seq a m)) = 1%R).
        { intros a m. revert a. induction m as [|m IH]; intros a H1 H2; [lia|]. cbn [seq map]. rewrite rs_cons.
          destruct (Nat.eqb_spec a d) as [->|N].
          - assert (Z : rsum (map (fun e => if e =? d then 1 else 0)%R (seq (S d) m)) = 0%R); [|lra].
            assert (Y : forall b, d < b -> rsum (map (fun e => if e =? d then 1 else 0)%R (seq b m)) = 0%R).
            { clear. induction m as [|m IH]; intros b Hb; [reflexivity|]. cbn [seq map]. rewrite rs_cons, (IH (S b)) by lia.
              destruct (Nat.eqb_spec b d); [lia|lra]. }
            apply Y. lia.
          - rewrite IH by lia. lra. }
        apply G; lia. }
      rewrite E. lra.
  Qed.
  Lemma run_bytop P words c maxes etop lse k ds : Forall (fun d => d < D) ds -> forall s r, run P words c maxes etop lse ds s = Ok r ->
    d_bytop s k = vsum D (fun d => d_topics s d k) -> d_bytop r k = vsum D (fun d => d_topics r d k).
  Proof.
    intros F. induction F as [|d ds HD F IH]; intros s r H HS; cbn [docs] in H.
    - injection H as <-. exact HS.
    - destruct (step _ _ _ _ _ _ d s) as [s1|e] eqn:E; [|discriminate]. cbn [bind] in H. apply (IH s1 r H).
      apply step_ok in E as (_ & post & _ & E). cbv zeta in E. rewrite E. cbn [d_bytop d_topics]. rewrite vsum_set_row by exact HD. lra.
  Qed.
  Lemma run_post P words c maxes etop lse ds : forall s r, run P words c maxes etop lse ds s = Ok r ->
    forall e, ~ In e ds -> d_post r e = d_post s e.
  Proof.
    induction ds as [|d ds IH]; intros s r H e He; cbn [docs] in H.
    - injection H as <-. reflexivity.
    - destruct (step _ _ _ _ _ _ d s) as [s1|x] eqn:E; [|discriminate]. cbn [bind] in H. rewrite (IH s1 r H) by (intros X; apply He; right; exact X).
      apply step_ok in E as (_ & post & _ & E). cbv zeta in E. rewrite E. cbn [d_post]. unfold set_row.
      destruct (Nat.eqb_spec e d) as [->|]; [exfalso; apply He; left; reflexivity|reflexivity].
  Qed.
  Lemma run_skew P words c maxes etop lse i j ds : NoDup ds -> forall s r, run P words c maxes etop lse ds s = Ok r ->
    (d_newcov r i j - d_newcov r j i = d_newcov s i j - d_newcov s j i + rsum (map (fun d => d_post r d j - d_post r d i) ds))%R.
  Proof.
    intros ND. induction ND as [|d ds NI ND IH]; intros s r H; cbn [docs] in H.
    - injection H as <-. cbn. lra.
    - destruct (step _ _ _ _ _ _ d s) as [s1|e] eqn:E; [|discriminate]. cbn [bind] in H. rewrite (IH s1 r H). cbn [map]. rewrite rs_cons.
      rewrite (run_post _ _ _ _ _ _ _ _ _ H d NI). apply step_ok in E as (_ & post & _ & E). cbv zeta in E. rewrite E. cbn [d_newcov d_post]. unfold set_row.
      rewrite Nat.eqb_refl. lra.
  Qed.
  Lemma run_rank P words c maxes etop lse ds : forall s r, run P words c maxes etop lse ds s = Ok r ->
    exists (vs : list vec) (w : vec), List.length vs = List.length ds /\
      forall i j, d_newcov r i j = (d_newcov s i j + rsum (map (fun v => v i * v j) vs) + w j)%R.
  Proof.
    induction ds as [|d ds IH]; intros s r H; cbn [docs] in H.
    - injection H as <-. exists [], (fun _ => 0%R). split; [reflexivity|]. intros. cbn. lra.
    - destruct (step _ _ _ _ _ _ d s) as [s1|e] eqn:E; [|discriminate]. cbn [bind] in H. destruct (IH s1 r H) as (vs & w & LN & EQ).
      apply step_ok in E as (_ & post & _ & E). cbv zeta in E.
      match type of E with s1 = {| d_topics := _; d_post := _; d_bytop := _; d_maxes := _; d_in := _; d_newcov := fun i j => (_ + ?f * _ + _)%R; d_words := _ |} => idtac end.
      exists ((fun k => (vsum K (fun j => post k j * right_side K D T Q W n psi U V P words c maxes etop (d_bytop s) (d_topics s) d j) - prior_mean Q U V d k)%R) :: vs),
        (fun j => (w j + post j j)%R).
      split; [cbn; rewrite LN; reflexivity|]. intros i j. rewrite EQ, E. cbn [d_newcov map]. rewrite rs_cons. lra.
  Qed.

  Lemma iter_ok P maxes s P' maxes' s' : iter P maxes s = Ok (P', maxes', s') -> exists r,
    run P (m_words s) (m_in s) maxes (m_exp_bytop s) (m_lse s) (seq 0 D)
      {| d_topics := m_topics s; d_post := m_post s; d_bytop := m_bytop s; d_maxes := fun _ => tiny_max;
         d_in := fun _ => 0%R; d_newcov := fun _ _ => 0%R; d_words := fun _ _ => beta |} = Ok r /\
    inv (d_newcov r) = Ok P' /\
    s' = {| m_topics := d_topics r; m_post := d_post r; m_bydoc := m_bydoc s; m_bytop := d_bytop r; m_exp_bydoc := m_exp_bydoc s;
            m_exp_bytop := fun k => vsum D (fun d => exp (d_topics r d k - d_maxes r k));
            m_lse := m_lse s; m_in := d_in r; m_words := d_words r; m_cov := d_newcov r |}.
  Proof.
    unfold mtm1_iter. destruct (run _ _ _ _ _ _ _ _) as [r|e]; [|discriminate]. cbn [bind]. destruct (inv (d_newcov r)) as [P1|e] eqn:I; [|discriminate]. cbn [bind].
    intros X. injection X as <- <- <-. exists r. auto.
  Qed.
  (** What every iteration keeps, and what every iteration makes. *)
  Lemma loop_keeps (G : mst -> Prop) stop : (forall P maxes s P' maxes' s', iter P maxes s = Ok (P', maxes', s') -> G s -> G s') ->
    forall todo itr P maxes s s', loop stop itr todo P maxes s = Ok s' -> G s -> G s'.
  Proof.
    intros HG. induction todo as [|todo IH]; intros itr P maxes s s' H HS; cbn [mtm1_loop] in H; [injection H as <-; exact HS|].
    destruct (stop itr s) as [[|]|e]; [injection H as <-; exact HS| |discriminate]. cbn [bind] in H.
    destruct (iter P maxes s) as [[[P1 m1] s1]|e] eqn:E; [|discriminate]. cbn [bind] in H. apply (IH _ _ _ _ _ H). apply (HG _ _ _ _ _ _ E HS).
  Qed.
  Lemma train_keeps (G : mst -> Prop) stop : (forall P maxes s P' maxes' s', iter P maxes s = Ok (P', maxes', s') -> G s -> G s') ->
    forall iterations s s', train stop iterations s = Ok s' -> G s -> G s'.
  Proof.
    intros HG iterations s s' H HS. unfold mtm1_train in H. destruct (existsb _ _); [discriminate|]. destruct (inv (m_cov s)) as [P|e]; [|discriminate].
    cbn [bind] in H. destruct (D =? 0); [discriminate|]. apply (loop_keeps G stop HG _ _ _ _ _ _ H HS).
  Qed.
  Lemma train_makes (G : mst -> Prop) stop : (forall P maxes s P' maxes' s', iter P maxes s = Ok (P', maxes', s') -> G s') ->
    forall iterations s s', train stop iterations s = Ok s' -> 0 < iterations -> stop 0 s = Ok false -> G s'.
  Proof.
    intros HG iterations s s' H HI HS. unfold mtm1_train in H. destruct (existsb _ _); [discriminate|]. destruct (inv (m_cov s)) as [P|e]; [|discriminate].
    cbn [bind] in H. destruct (D =? 0); [discriminate|]. destruct iterations as [|todo]; [lia|]. cbn [mtm1_loop] in H. rewrite HS in H. cbn [bind] in H.
    destruct (iter P _ s) as [[[P1 m1] s1]|e] eqn:E; [|discriminate]. cbn [bind] in H.
    apply (loop_keeps G stop (fun P maxes s P' maxes' s' E _ => HG P maxes s P' maxes' s' E) _ _ _ _ _ _ H). apply (HG _ _ _ _ _ _ E).
  Qed.
End lemmas.

(** ** C256: mtm accounts for every word and every link *)
Section statements.
  Context (K D T Q : nat) (W L : mat) (n : vec) (beta : R) (psi : R -> R) (inv : mat -> res mat) (U V : mat).
  Notation train := (mtm1_train K D T Q W L n beta psi inv U V).
  (** Each word adds its occurrences to the topics, beside the prior. *)
  Theorem C256_words stop iterations s s' : 0 < K -> train stop iterations s = Ok s' -> 0 < iterations -> stop 0 s = Ok false ->
    forall t, vsum K (fun k => m_words s' k t) = (INR K * beta + vsum D (fun d => W d t))%R.
  Proof.
    intros HK H HI HS t. revert H HI HS. apply (train_makes K D T Q W L n beta psi inv U V (fun s' => vsum K (fun k => m_words s' k t) = _)).
    clear s s'. intros P maxes s P' maxes' s' E. apply iter_ok in E as (r & E & _ & ->). cbn [m_words].
    rewrite (run_words _ _ _ _ _ _ _ _ _ _ _ _ _ _ _ _ _ t _ HK _ _ E). cbn [d_words]. rewrite vsum_const. reflexivity.
  Qed.
  (** The distributions over words, wordDists(model), are such. *)
  Theorem C256_distributions stop iterations s s' : 0 < K -> 0 < T -> (0 < beta)%R -> (forall d t, d < D -> t < T -> (0 <= W d t)%R) ->
    train stop iterations s = Ok s' -> 0 < iterations -> stop 0 s = Ok false ->
    forall k, k < K -> proper T (norm_rows T (m_words s') k) /\ forall t, t < T -> (0 < norm_rows T (m_words s') k t)%R.
  Proof.
    intros HK HT HB HW H HI HS k Hk.
    assert (P : forall t, t < T -> (beta <= m_words s' k t)%R).
    { intros t Ht. revert H HI HS. apply (train_makes K D T Q W L n beta psi inv U V (fun s' => (beta <= m_words s' k t)%R)).
      clear s s'. intros P maxes s P' maxes' s' E. apply iter_ok in E as (r & E & _ & ->). cbn [m_words].
      apply (run_words_low _ _ _ _ _ _ _ _ _ _ _ _ _ _ _ _ _ k t beta _ HK) with (2 := E); [|cbn; lra].
      intros d Hd. apply in_seq in Hd. apply HW; lia. }
    assert (S : (0 < vsum T (m_words s' k))%R) by (apply vsum_pos; [exact HT|]; intros t Ht; specialize (P t Ht); lra).
    assert (G : forall t, t < T -> (0 < norm_rows T (m_words s') k t)%R).
    { intros t Ht. unfold norm_rows. apply Rdiv_lt_0_compat; [specialize (P t Ht); lra|exact S]. }
    split; [split|exact G].
    - intros t Ht. left. apply G. exact Ht.
    - unfold norm_rows, Rdiv. rewrite vsum_scale_r. apply Rinv_r. lra.
  Qed.
  (** The links are shared out among the topics from the beginning, and stay so. *)
  Theorem C256_links stop iterations tops words cov s' : 0 < K -> train stop iterations (new_state K D L tops words cov) = Ok s' ->
    vsum K (m_in s') = vsum D (fun d => vsum D (L d)).
  Proof.
    intros HK H. apply (train_keeps K D T Q W L n beta psi inv U V (fun s => vsum K (m_in s) = vsum D (fun d => vsum D (L d))) stop) with (2 := H).
    - intros P maxes s P' maxes' s'' E _. apply iter_ok in E as (r & E & _ & ->). cbn [m_in].
      rewrite (run_in _ _ _ _ _ _ _ _ _ _ _ _ _ _ _ _ _ _ HK _ _ E). cbn [d_in]. rewrite vsum_const. unfold vsum. lra.
    - cbn [new_state m_in]. rewrite vsum_const. field. apply not_0_INR. lia.
  Qed.

  (** ** C257: the sums kept beside the topics *)
  Theorem C257_by_topic stop iterations tops words cov s' : train stop iterations (new_state K D L tops words cov) = Ok s' ->
    forall k, m_bytop s' k = vsum D (fun d => m_topics s' d k).
  Proof.
    intros H k. apply (train_keeps K D T Q W L n beta psi inv U V (fun s => m_bytop s k = vsum D (fun d => m_topics s d k)) stop) with (2 := H).
    - intros P maxes s P' maxes' s'' E HS. apply iter_ok in E as (r & E & _ & ->). cbn [m_bytop m_topics].
      apply (run_bytop _ _ _ _ _ _ _ _ _ _ _ _ _ _ _ _ _ k _) with (2 := E); [|exact HS]. apply Forall_forall. intros d Hd. apply in_seq in Hd. lia.
    - reflexivity.
  Qed.
  (** The others are never brought up to date. *)
  Theorem C257_not_updated stop iterations s s' : train stop iterations s = Ok s' ->
    m_bydoc s' = m_bydoc s /\ m_exp_bydoc s' = m_exp_bydoc s /\ m_lse s' = m_lse s.
  Proof.
    intros H. apply (train_keeps K D T Q W L n beta psi inv U V (fun x => m_bydoc x = m_bydoc s /\ m_exp_bydoc x = m_exp_bydoc s /\ m_lse x = m_lse s) stop) with (2 := H).
    - intros P maxes s0 P' maxes' s'' E HS. apply iter_ok in E as (r & E & _ & ->). exact HS.
    - auto.
  Qed.

  (** ** C258: the covariance of the topics is symmetric *)
  (** It is out by the sums of the variances of the topics. *)
  Theorem C258_asymmetry stop iterations s s' : train stop iterations s = Ok s' -> 0 < iterations -> stop 0 s = Ok false ->
    forall i j, (m_cov s' i j - m_cov s' j i = vsum D (fun d => m_post s' d j) - vsum D (fun d => m_post s' d i))%R.
  Proof.
    intros H HI HS i j. revert H HI HS.
    apply (train_makes K D T Q W L n beta psi inv U V (fun s' => (m_cov s' i j - m_cov s' j i = vsum D (fun d => m_post s' d j) - vsum D (fun d => m_post s' d i))%R)).
    clear s s'. intros P maxes s P' maxes' s' E. apply iter_ok in E as (r & E & _ & ->). cbn [m_cov m_post].
    rewrite (run_skew _ _ _ _ _ _ _ _ _ _ _ _ _ _ _ _ _ i j _ (seq_NoDup _ _) _ _ E). cbn [d_newcov].
    rewrite <- vsum_minus. unfold vsum. lra.
  Qed.
End statements.

(** ** C260: training with few documents *)
Lemma some_or_none (f : nat -> R) l : (exists j, In j l /\ f j <> 0%R) \/ (forall j, In j l -> f j = 0%R).
Proof.
  induction l as [|a l [(j & I & N)|A]]; [right; intros j []|left; exists j; split; [right|]; assumption|].
  destruct (Req_EM_T (f a) 0) as [E|N]; [right; intros j [<-|I]; auto|left; exists a; split; [left; reflexivity|exact N]].
Qed.
(** Fewer equations than unknowns. *)
Lemma kernel m : forall (A : mat) cols, NoDup cols -> m < List.length cols -> exists x : vec,
  (exists j, In j cols /\ x j <> 0%R) /\ forall i, i < m -> rsum (map (fun j => A i j * x j)%R cols) = 0%R.
Proof.
  induction m as [|m IH]; intros A cols ND HL.
  - exists (fun _ => 1%R). split; [|lia]. destruct cols as [|c cols]; [cbn in HL; lia|]. exists c. split; [left; reflexivity|lra].
  - destruct (some_or_none (A m) cols) as [(p & I & N)|Z].
    + apply in_split in I as (l1 & l2 & ->). assert (ND' : NoDup (l1 ++ l2) /\ ~ In p (l1 ++ l2)) by (apply NoDup_remove; exact ND). destruct ND' as (ND' & NP).
      destruct (IH (fun i j => A i j - A i p / A m p * A m j)%R (l1 ++ l2) ND') as (y & (j & I & NZ) & E).
      { rewrite app_length in *. cbn in HL. lia. }
      assert (EX : forall i, rsum (map (fun j => A i j * (if j =? p then - rsum (map (fun j => A m j * y j) (l1 ++ l2)) / A m p else y j)) (l1 ++ p :: l2))%R
                 = (rsum (map (fun j => A i j * y j) (l1 ++ l2)) - A i p / A m p * rsum (map (fun j => A m j * y j) (l1 ++ l2)))%R).
      { intros i. set (c := rsum (map (fun j => A m j * y j)%R (l1 ++ l2))). rewrite (map_app _ l1 (p :: l2)), rsum_app. cbn [map]. rewrite rs_cons, Nat.eqb_refl.
        rewrite (rsum_ext _ (fun j => A i j * y j)%R l1), (rsum_ext _ (fun j => A i j * y j)%R l2).
        - rewrite (map_app _ l1 l2), rsum_app. field. exact N.
        - intros a Ia. destruct (Nat.eqb_spec a p) as [->|]; [exfalso; apply NP, in_or_app; right; exact Ia|reflexivity].
        - intros a Ia. destruct (Nat.eqb_spec a p) as [->|]; [exfalso; apply NP, in_or_app; left; exact Ia|reflexivity]. }
      exists (fun j => if j =? p then (- rsum (map (fun j => A m j * y j) (l1 ++ l2)) / A m p)%R else y j). split.
      * exists j. split; [apply in_app_or in I as [I|I]; apply in_or_app; [left|right; right]; exact I|].
        destruct (Nat.eqb_spec j p) as [->|]; [contradiction|exact NZ].
      * intros i Hi. cbv beta. rewrite EX. destruct (Nat.eq_dec i m) as [->|NE]; [field; exact N|].
        specialize (E i ltac:(lia)). rewrite (rsum_ext _ (fun j => A i j * y j + (- (A i p / A m p)) * (A m j * y j))%R) in E by (intros; ring).
        rewrite MixProofs.rsum_plus in E.
        replace (rsum (map (fun j => - (A i p / A m p) * (A m j * y j)) (l1 ++ l2)))%R with (- (A i p / A m p) * rsum (map (fun j => A m j * y j) (l1 ++ l2)))%R in E.
        -- lra.
        -- clear. induction (l1 ++ l2) as [|a l IH]; cbn [map]; [cbn; ring|rewrite !rs_cons, <- IH; ring].
    + destruct (IH A cols ND ltac:(lia)) as (x & NZ & E). exists x. split; [exact NZ|]. intros i Hi.
      destruct (Nat.eq_dec i m) as [->|NE]; [|apply E; lia]. rewrite (rsum_ext _ (fun _ => 0%R)); [rewrite MixProofs.rsum_const; ring|].
      intros j I. rewrite (Z j I). ring.
Qed.
(** A matrix that is a sum of fewer than K products of vectors has no inverse. *)
Lemma low_rank K (M N : mat) (vs : list vec) (w : vec) : List.length vs + 1 < K ->
  (forall i j, M i j = (rsum (map (fun v => v i * v j) vs) + w j)%R) -> ~ is_inverse K N M.
Proof.
  intros HL EM IN.
  destruct (kernel (S (List.length vs)) (fun i => if i =? List.length vs then w else nth i vs w) (seq 0 K) (seq_NoDup _ _)) as (x & (l & I & NZ) & E).
  { rewrite seq_length. lia. }
  apply in_seq in I. apply NZ.
  assert (V0 : forall v, In v vs -> vsum K (fun j => v j * x j)%R = 0%R).
  { intros v I'. apply In_nth with (d := w) in I' as (i & Hi & <-). specialize (E i ltac:(lia)). replace (i =? List.length vs) with false in E by (symmetry; apply Nat.eqb_neq; lia). exact E. }
  assert (W0 : vsum K (fun j => w j * x j)%R = 0%R).
  { specialize (E (List.length vs) ltac:(lia)). rewrite Nat.eqb_refl in E. exact E. }
  assert (M0 : forall i, vsum K (fun j => M i j * x j)%R = 0%R).
  { intros i. rewrite (vsum_ext K _ (fun j => rsum (map (fun v => v i * v j) vs) * x j + w j * x j)%R) by (intros; rewrite EM; ring).
    rewrite vsum_plus, W0, Rplus_0_r. clear -V0. induction vs as [|v vs IH].
    - rewrite (vsum_ext K _ (fun _ => 0%R)); [rewrite vsum_const; ring|]. intros; cbn; ring.
    - cbn [map]. rewrite (vsum_ext K _ (fun j => v i * (v j * x j) + rsum (map (fun v => v i * v j) vs) * x j)%R) by (intros; rewrite rs_cons; ring).
      rewrite vsum_plus, vsum_scale, (V0 v) by (left; reflexivity). rewrite IH; [ring|]. intros v' I. apply V0. right. exact I. }
  assert (X : x l = vsum K (fun j => eye l j * x j)%R) by (rewrite vsum_eye; [reflexivity|lia]).
  rewrite X. rewrite (vsum_ext K _ (fun j => vsum K (fun i => N l i * (M i j * x j))%R)).
  - rewrite vsum_swap. rewrite (vsum_ext K _ (fun _ => 0%R)); [rewrite vsum_const; ring|]. intros i Hi. rewrite vsum_scale, M0. ring.
  - intros j Hj. rewrite <- (IN l j) by lia. rewrite <- vsum_scale_r. apply vsum_ext. intros; ring.
Qed.
(** With fewer documents than one less than the number of topics no run gets to its end. *)
Theorem C260_few_documents_refuted : forall K D T Q W L n beta psi inv U V stop iterations s,
  (forall M N, inv M = Ok N -> is_inverse K N M) -> D + 1 < K -> 0 < iterations -> stop 0 s = Ok false ->
  forall s', mtm1_train K D T Q W L n beta psi inv U V stop iterations s <> Ok s'.
Proof.
  intros K D T Q W L n beta psi inv U V stop iterations s HI HD IT ST s' H. revert H IT ST.
  apply (train_makes K D T Q W L n beta psi inv U V (fun _ => False)). clear s s'. intros P maxes s P' maxes' s' E.
  apply iter_ok in E as (r & E & I & _). destruct (run_rank _ _ _ _ _ _ _ _ _ _ _ _ _ _ _ _ _ _ _ _ E) as (vs & w & LN & EQ).
  rewrite seq_length in LN. apply (low_rank K (d_newcov r) P' vs w); [lia| |apply HI, I].
  intros i j. rewrite EQ. cbn [d_newcov]. ring.
Qed.

(** ** An actual run: two documents of one word, no links, two topics *)
Definition inv2r (M : mat) : res mat :=
  if Req_EM_T (M 0%nat 0%nat * M 1%nat 1%nat - M 0%nat 1%nat * M 1%nat 0%nat)%R 0 then Raise LinAlgError else Ok (inv2 M).
Lemma inv2r_sound M N : inv2r M = Ok N -> is_inverse 2 M N /\ is_inverse 2 N M.
Proof.
  unfold inv2r. destruct (Req_EM_T _ _) as [|H]; [discriminate|]. intros X. injection X as <-. split; [apply inv2_ok; exact H|].
  intros i j Hi Hj. change (fun l => (inv2 M i l * M l j)%R) with (fun l => (inv2 M i l * M l j)%R). unfold vsum. cbn [seq map rsum].
  destruct i as [|[|]]; [| |lia]; (destruct j as [|[|]]; [| |lia]); unfold inv2, eye; cbn [Nat.eqb]; field; exact H.
Qed.
Definition w1 : mat := fun _ _ => 1%R.
Definition l0 : mat := fun _ _ => 0%R.
Definition n1 : vec := fun _ => 1%R.
Definition u1 : mat := fun _ _ => (1 / 2)%R.
Definition v1 : mat := fun _ k => if k =? 0 then 1%R else 0%R.
Definition cov1 : mat := fun i j => if i =? j then (if i =? 0 then 1 else 2)%R else 0%R.
Definition start1 : mst := new_state 2 2 l0 (fun _ _ => (1 / 2)%R) (fun _ _ => 1%R) cov1.
Definition never : nat -> mst -> res bool := fun _ _ => Ok false.

Lemma half_softmax v k : v 0 = v 1 -> k < 2 -> vsoftmax 2 v k = (1 / 2)%R.
Proof.
  intros E Hk. unfold vsoftmax, vsum. cbn [seq map rsum]. rewrite E. pose proof (exp_pos (v 1 - vmax 2 v)) as P.
  destruct k as [|[|]]; [rewrite E| |lia]; field; lra.
Qed.
Lemma step1 psi d maxes etop lse s : d < 2 -> (forall k, k < 2 -> d_topics s d k = (1 / 2)%R) ->
  exists r, doc_step 2 2 1 1 w1 l0 n1 psi inv2r u1 v1 (inv2 cov1) (fun _ _ => 1%R) (m_in start1) maxes etop lse d s = Ok r /\
  (forall e k, e <> d -> d_topics r e k = d_topics s e k) /\ d_topics r d 0 = (9 / 34)%R /\ d_topics r d 1 = (2 / 17)%R /\
  d_newcov r 0 0 = (d_newcov s 0%nat 0%nat + 253 / 578)%R /\ d_newcov r 0 1 = (d_newcov s 0%nat 1%nat + 256 / 578)%R /\
  d_newcov r 1 0 = (d_newcov s 1%nat 0%nat + 205 / 578)%R /\ d_newcov r 1 1 = (d_newcov s 1%nat 1%nat + 280 / 578)%R /\
  (forall k, k < 2 -> d_words r k 0 = (d_words s k 0%nat + 1 / 2)%R).
Proof.
  intros Hd HT. unfold doc_step. cbn [Nat.eqb].
  assert (P : forall i j, i < 2 -> j < 2 -> precision 2 2 l0 n1 (inv2 cov1) (m_in start1) d i j
              = (if i =? j then (if i =? 0 then 8 / 3 else 13 / 6) else - (1 / 3))%R).
  { intros i j Hi Hj. unfold precision, out_count, start1. cbn [new_state m_in]. unfold vsum. cbn [seq map rsum].
    destruct i as [|[|]]; [| |lia]; (destruct j as [|[|]]; [| |lia]); unfold inv2, cov1, n1, l0; cbn [Nat.eqb INR]; field. }
  unfold inv2r at 1. destruct (Req_EM_T _ _) as [Z|_].
  { exfalso. rewrite !P in Z by lia. cbn [Nat.eqb] in Z. lra. }
  cbn [bind].
  assert (RS : forall k, k < 2 -> right_side 2 2 1 1 w1 n1 psi u1 v1 (inv2 cov1) (fun _ _ => 1%R) (m_in start1) maxes etop (d_bytop s) (d_topics s) d k
               = (if k =? 0 then 2 / 3 else 1 / 6)%R).
  { intros k Hk. unfold right_side, coef_b, coef_f. rewrite (half_softmax (d_topics s d) k) by (rewrite ?HT; lia || reflexivity).
    assert (C : m_in start1 k = 0%R) by (unfold start1; cbn [new_state m_in]; unfold vsum, l0; cbn [seq map rsum INR]; field).
    rewrite C, !Rmult_0_l. unfold vsum. cbn [seq map rsum]. unfold word_share. rewrite half_softmax by (rewrite ?HT; lia || reflexivity). rewrite !HT by lia.
    unfold prior_mean, vsum, w1, n1, u1, v1. cbn [seq map rsum]. destruct k as [|[|]]; [| |lia]; unfold inv2, cov1; cbn [Nat.eqb INR]; field. }
  eexists. split; [reflexivity|]. cbn [d_topics d_newcov d_words]. unfold set_row. rewrite Nat.eqb_refl.
  assert (N0 : vsum 2 (fun j => inv2 (precision 2 2 l0 n1 (inv2 cov1) (m_in start1) d) 0%nat j * right_side 2 2 1 1 w1 n1 psi u1 v1 (inv2 cov1) (fun _ _ => 1%R) (m_in start1) maxes etop (d_bytop s) (d_topics s) d j)%R = (9 / 34)%R).
  { unfold vsum. cbn [seq map rsum]. rewrite !RS by lia. unfold inv2 at 1 3. cbn [Nat.eqb]. rewrite !P by lia. cbn [Nat.eqb]. field. }
  assert (N1 : vsum 2 (fun j => inv2 (precision 2 2 l0 n1 (inv2 cov1) (m_in start1) d) 1%nat j * right_side 2 2 1 1 w1 n1 psi u1 v1 (inv2 cov1) (fun _ _ => 1%R) (m_in start1) maxes etop (d_bytop s) (d_topics s) d j)%R = (2 / 17)%R).
  { unfold vsum. cbn [seq map rsum]. rewrite !RS by lia. unfold inv2 at 1 3. cbn [Nat.eqb]. rewrite !P by lia. cbn [Nat.eqb]. field. }
  rewrite N0, N1.
  assert (Q0 : prior_mean 1 u1 v1 d 0 = (1 / 2)%R) by (unfold prior_mean, vsum, u1, v1; cbn; field).
  assert (Q1 : prior_mean 1 u1 v1 d 1 = 0%R) by (unfold prior_mean, vsum, u1, v1; cbn; field).
  rewrite Q0, Q1.
  assert (S0 : inv2 (precision 2 2 l0 n1 (inv2 cov1) (m_in start1) d) 0 0 = (13 / 34)%R).
  { unfold inv2 at 1. cbn [Nat.eqb]. rewrite !P by lia. cbn [Nat.eqb]. field. }
  assert (S1 : inv2 (precision 2 2 l0 n1 (inv2 cov1) (m_in start1) d) 1 1 = (16 / 34)%R).
  { unfold inv2 at 1. cbn [Nat.eqb]. rewrite !P by lia. cbn [Nat.eqb]. field. }
  rewrite S0, S1. repeat split; try field.
  - intros e k He. rewrite (proj2 (Nat.eqb_neq e d) He). reflexivity.
  - intros k Hk. unfold word_share. rewrite half_softmax by (rewrite ?HT; lia || reflexivity). unfold w1. field.
Qed.
(** What the run gives. *)
Lemma run1 psi beta : exists s', mtm1_train 2 2 1 1 w1 l0 n1 beta psi inv2r u1 v1 never 1 start1 = Ok s' /\
  (forall d, d < 2 -> m_topics s' d 0 = (9 / 34)%R /\ m_topics s' d 1 = (2 / 17)%R) /\
  m_cov s' 0 0 = (253 / 289)%R /\ m_cov s' 0 1 = (256 / 289)%R /\ m_cov s' 1 0 = (205 / 289)%R /\
  (forall k, k < 2 -> m_words s' k 0 = (beta + 1)%R).
Proof.
  unfold mtm1_train. replace (existsb _ _) with false.
  2:{ symmetry. cbn [seq existsb]. unfold n1. rewrite !(proj2 (rltb_false 1 1)) by lra. reflexivity. }
  unfold inv2r at 1. destruct (Req_EM_T _ _) as [Z|_].
  { exfalso. unfold start1 in Z. cbn [new_state m_cov] in Z. unfold cov1 in Z. cbn [Nat.eqb] in Z. lra. }
  cbn [bind Nat.eqb mtm1_loop never]. unfold mtm1_iter. cbn [seq docs]. change (m_words start1) with (fun _ _ : nat => 1%R).
  change (m_cov start1) with cov1.
  match goal with |- context [doc_step _ _ _ _ _ _ _ _ _ _ _ _ _ _ ?mx ?et ?ls 0 ?s] => destruct (step1 psi 0 mx et ls s) as (r0 & E0 & F0 & A0 & B0 & C00 & C01 & C10 & C11 & G0); [lia|reflexivity|] end.
  rewrite E0. cbn [bind].
  match goal with |- context [doc_step _ _ _ _ _ _ _ _ _ _ _ _ _ _ ?mx ?et ?ls 1 r0] => destruct (step1 psi 1 mx et ls r0) as (r1 & E1 & F1 & A1 & B1 & D00 & D01 & D10 & D11 & G1); [lia| |] end.
  { intros k Hk. rewrite F0 by lia. reflexivity. }
  rewrite E1. cbn [bind]. cbn [d_newcov] in *. unfold inv2r. destruct (Req_EM_T _ _) as [Z|_].
  { exfalso. rewrite D00, D01, D10, D11, C00, C01, C10, C11 in Z. lra. }
  cbn [bind]. eexists. split; [reflexivity|]. cbn [m_topics m_cov m_words].
  split.
  { intros d Hd. destruct d as [|[|]]; [| |lia]; [|split; assumption]. rewrite !F1 by lia. split; assumption. }
  rewrite D00, D01, D10, C00, C01, C10. repeat split; try lra.
  intros k Hk. rewrite G1, G0 by exact Hk. cbn [d_words]. lra.
Qed.

(** Of the sums that a query state keeps, three are wrong after training. *)
Theorem C257_stale_refuted : forall psi beta, exists s', mtm1_train 2 2 1 1 w1 l0 n1 beta psi inv2r u1 v1 never 1 start1 = Ok s' /\
  m_bydoc s' 0 <> vsum 2 (m_topics s' 0) /\
  m_exp_bydoc s' 0 <> vsum 2 (fun k => exp (m_topics s' 0 k)) /\
  m_lse s' 0 <> ln (vsum 2 (fun d => exp (m_topics s' d 0%nat))).
Proof.
  intros psi beta. destruct (run1 psi beta) as (s' & E & TT & _). exists s'. split; [exact E|].
  destruct (C257_not_updated _ _ _ _ _ _ _ _ _ _ _ _ _ _ _ _ E) as (B1 & B2 & B3). rewrite B1, B2, B3. unfold start1. cbn [new_state m_bydoc m_exp_bydoc m_lse].
  destruct (TT 0 ltac:(lia)) as (X0 & X1). destruct (TT 1 ltac:(lia)) as (Y0 & Y1). unfold vsum. cbn [seq map rsum]. rewrite X0, X1, Y0.
  pose proof (exp_increasing (9 / 34) (1 / 2) ltac:(lra)). pose proof (exp_increasing (2 / 17) (1 / 2) ltac:(lra)).
  pose proof (exp_pos (9 / 34)). repeat split; try lra.
  assert (ln (exp (9 / 34) + (exp (9 / 34) + 0)) < ln (exp (1 / 2) + (exp (1 / 2) + 0)))%R; [|lra]. apply ln_increasing; lra.
Qed.
(** Training makes a covariance that is not symmetric from one that is. *)
Theorem C258_symmetric_refuted : forall psi beta, (forall i j, m_cov start1 i j = m_cov start1 j i) /\
  exists s', mtm1_train 2 2 1 1 w1 l0 n1 beta psi inv2r u1 v1 never 1 start1 = Ok s' /\ m_cov s' 0 1 <> m_cov s' 1 0.
Proof.
  intros psi beta. split.
  - intros i j. unfold start1. cbn [new_state m_cov]. unfold cov1. rewrite (Nat.eqb_sym j i). destruct (Nat.eqb_spec i j) as [->|]; reflexivity.
  - destruct (run1 psi beta) as (s' & E & _ & _ & C1 & C2 & _). exists s'. split; [exact E|]. rewrite C1, C2. lra.
Qed.
Example C256_case : forall psi, exists s', mtm1_train 2 2 1 1 w1 l0 n1 (1 / 10) psi inv2r u1 v1 never 1 start1 = Ok s' /\
  vsum 2 (fun k => m_words s' k 0) = (22 / 10)%R.
Proof.
  intros psi. destruct (run1 psi (1 / 10)) as (s' & E & _). exists s'. split; [exact E|].
  rewrite (C256_words 2 2 1 1 w1 l0 n1 (1 / 10) psi inv2r u1 v1 never 1 start1 s' ltac:(lia) E ltac:(lia) eq_refl). unfold vsum, w1. cbn [seq map rsum INR]. field.
Qed.

(** ** C259: queries and copies leave the model as it is *)
Theorem C259_query_refuted : forall psi beta, (0 < beta)%R ->
  exists s', mtm1_query 2 2 1 1 w1 l0 n1 beta psi inv2r u1 v1 never 1 start1 = Ok s' /\
  m_words s' 0 0 <> m_words start1 0 0 /\ m_cov s' 0 0 <> m_cov start1 0 0.
Proof.
  intros psi beta HB. destruct (run1 psi beta) as (s' & E & _ & C0 & _ & _ & G). exists s'. split; [exact E|]. rewrite (G 0) by lia. rewrite C0.
  unfold start1. cbn [new_state m_words m_cov]. unfold cov1. cbn [Nat.eqb]. split; lra.
Qed.
Theorem C259_copy_equal : forall (N A : Type) (zero_dim : leaf N -> A) h m, of_module mtm1_module h m -> ready mtm1_module m ->
  exists m' new, new_model_from_existing zero_dim None mtm1_module h m = Ok (m', h ++ new) /\ look (h ++ new) m' = look h m.
Proof.
  intros N A zero_dim h m O R. destruct (copy_model zero_dim mtm1_module h m) as (m' & new & E & EQ & _); [|exact O|exact R|exists m', new; auto].
  split; [reflexivity|]. cbn. repeat constructor; cbn; intuition discriminate.
Qed.
(** The covariance is not copied: writing to that of the copy, as training does, changes
    that of the model. *)
Theorem C259_copy_shares_refuted : forall (N A : Type) (zero_dim : leaf N -> A) h m a,
  of_module mtm1_module h m -> ready mtm1_module m -> getattr m "topicCov"%string = Ok (LArr a) ->
  exists m' h', new_model_from_existing zero_dim None mtm1_module h m = Ok (m', h') /\ getattr m' "topicCov"%string = Ok (LArr a).
Proof.
  intros N A zero_dim h m a (FS & EX) R G. unfold new_model_from_existing.
  destruct (C259_copy_equal N A zero_dim h m (conj FS EX) R) as (m' & new & E & _). unfold new_model_from_existing in E.
  destruct (eval_sources zero_dim None h m (sources mtm1_module)) as [[vs h']|e] eqn:EV; [|discriminate]. cbn [bind] in *.
  destruct (construct (fields mtm1_module) vs) as [t|e] eqn:C; [|discriminate]. cbn [bind] in *. injection E as -> ->.
  exists m', (h ++ new). split; [reflexivity|].
  unfold mtm1_module in EV. cbn [sources eval_sources] in EV.
  repeat match type of EV with bind ?x _ = _ => let q := fresh "q" in destruct x as [[? ?]|] eqn:q; [cbn [bind] in EV|discriminate EV] end.
  repeat match goal with H : bind ?x _ = Ok _ |- _ => let q := fresh "q" in destruct x as [[? ?]|] eqn:q; [cbn [bind] in H|discriminate H] end.
  repeat match goal with H : Ok _ = Ok _ |- _ => injection H; clear H; intros; subst end.
  cbn [eval_source] in *. unfold construct in C. cbn [fields mtm1_module List.length Nat.eqb] in C. injection C as <-. cbn [combine getattr String.eqb Ascii.eqb Bool.eqb].
  match goal with H : bind (getattr m "topicCov"%string) _ = Ok (?l, _) |- Ok ?l = _ => rewrite G in H; cbn [bind] in H; injection H as <- _ end. reflexivity.
Qed.
Example C259_case : exists (h : list nat) (m : tuple (leaf nat)), of_module mtm1_module h m /\ ready mtm1_module m /\ getattr m "topicCov"%string = Ok (LArr 2).
Proof.
  exists [7; 8; 9], (combine (fields mtm1_module) [LNum 3; LNum 2; LArr 0; LNum 1; LArr 1; LArr 2; LNum 0; LNum 0]).
  split; [split; [reflexivity|]|split; [|reflexivity]].
  - cbn. intros f l H. repeat (destruct H as [H|H]; [injection H as _ <-; cbn; lia || exact I|]). destruct H.
  - unfold ready, mtm1_module. cbn [sources]. repeat constructor; cbn [ready_for]; try exact I.
    + exists (LArr 0). split; [reflexivity|exact I].
    + exists (LArr 1). split; [reflexivity|]. right. split; [reflexivity|exact I].
Qed.
(** An inverse for four topics that knows the identity only. *)
Definition off4 (M : mat) : R := vsum 4 (fun i => vsum 4 (fun j => (M i j - eye i j) * (M i j - eye i j)))%R.
Definition inv4 (M : mat) : res mat := if Req_EM_T (off4 M) 0 then Ok eye else Raise LinAlgError.
Lemma inv4_sound M N : inv4 M = Ok N -> is_inverse 4 N M.
Proof.
  unfold inv4. destruct (Req_EM_T _ _) as [Z|]; [|discriminate]. intros X. injection X as <-. intros i j Hi Hj.
  rewrite (vsum_eye 4 i (fun l => M l j) Hi).
  assert (S0 : forall i j, (0 <= (M i j - eye i j) * (M i j - eye i j))%R) by (intros; apply Rle_0_sqr).
  pose proof (vsum_in_le 4 (fun i => vsum 4 (fun j => (M i j - eye i j) * (M i j - eye i j)))%R i (fun a _ => vsum_nonneg 4 _ (fun b _ => S0 a b)) Hi) as B1.
  pose proof (vsum_in_le 4 (fun j => (M i j - eye i j) * (M i j - eye i j))%R j (fun b _ => S0 i b) Hj) as B2. cbv beta in B1, B2.
  unfold off4 in Z. rewrite Z in B1. specialize (S0 i j). assert (E : ((M i j - eye i j) * (M i j - eye i j) = 0)%R) by lra.
  apply Rmult_integral in E. lra.
Qed.
Example C260_case : (exists s', mtm1_train 2 2 1 1 w1 l0 n1 1 (fun x => x) inv2r u1 v1 never 1 start1 = Ok s') /\
  inv4 eye = Ok eye /\
  forall s', mtm1_train 4 2 1 1 w1 l0 n1 1 (fun x => x) inv4 u1 v1 never 1 (new_state 4 2 l0 (fun _ _ => 1%R) w1 eye) <> Ok s'.
Proof.
  split; [destruct (run1 (fun x => x) 1) as (s' & E & _); exists s'; exact E|]. split.
  - unfold inv4. destruct (Req_EM_T _ _) as [|N]; [reflexivity|]. exfalso. apply N. unfold off4, vsum. cbn [seq map rsum]. ring.
  - intros s'. apply C260_few_documents_refuted; [exact inv4_sound|lia|lia|reflexivity].
Qed.

(** ** C261: mtm predicts links *)
Theorem C261_predicts_refuted : forall (A B : Type) (rest : A -> res B) (model : tuple A), map fst model = fields mtm1_module ->
  mtm1_predict rest model = Raise AttributeError.
Proof.
  intros A B rest model H. unfold mtm1_predict.
  assert (E : forall l : tuple A, ~ In "weights"%string (map fst l) -> getattr l "weights"%string = Raise AttributeError).
  { induction l as [|(f, x) l IH]; intros NI; [reflexivity|]. cbn [getattr]. destruct (String.eqb_spec f "weights"%string) as [->|_]; [exfalso; apply NI; left; reflexivity|].
    apply IH. intros I. apply NI. right. exact I. }
  rewrite E; [reflexivity|]. rewrite H. cbn. intuition discriminate.
Qed.
Example C261_case : mtm1_predict (fun x : nat => Ok x) (combine (fields mtm1_module) [1; 2; 3; 4; 5; 6; 7; 8]) = Raise AttributeError.
Proof. apply C261_predicts_refuted. reflexivity. Qed.

(** ** C262: self_lda_vb_python trains and queries *)
Theorem C262_fails_refuted : forall D n prior beta update measure updateVocab iterations words tops,
  2 <= D -> (forall d, d < D -> (1 <= n d)%R) -> 0 < iterations ->
  self_train D n prior beta update measure updateVocab iterations (words, tops)
  = (Raise TypeError, ((if updateVocab then (fun _ _ => beta) else words), fun d k => ((tops d k - prior k) / n d)%R)).
Proof.
  intros D n prior beta update measure updateVocab iterations words tops HD HN HI. unfold self_train.
  replace (existsb _ _) with false.
  2:{ symmetry. apply not_true_is_false. intros X. apply existsb_exists in X as (d & I & X). apply in_seq in I. rewrite (proj2 (rltb_false _ _)) in X; [discriminate|]. apply HN. lia. }
  replace (D =? 1) with false by (symmetry; apply Nat.eqb_neq; lia). destruct iterations as [|todo]; [lia|]. cbn [self_loop fst snd].
  destruct D as [|D']; [lia|]. cbn [seq self_docs]. unfold call. cbn [update_params List.length update_args Nat.eqb].
  destruct updateVocab; reflexivity.
Qed.
Theorem C262_nothing_to_do : forall D n prior beta update measure updateVocab words tops,
  2 <= D -> (forall d, d < D -> (1 <= n d)%R) ->
  exists words' tops', self_train D n prior beta update measure updateVocab 0 (words, tops) = (Ok tt, (words', tops')) /\
  words' = words /\ forall d k, d < D -> tops' d k = tops d k.
Proof.
  intros D n prior beta update measure updateVocab words tops HD HN. exists words, (means_to_params n (params_to_means n tops prior) prior). split; [|split; [reflexivity|]].
  - unfold self_train. replace (existsb _ _) with false.
    2:{ symmetry. apply not_true_is_false. intros X. apply existsb_exists in X as (d & I & X). apply in_seq in I. rewrite (proj2 (rltb_false _ _)) in X; [discriminate|]. apply HN. lia. }
    replace (D =? 1) with false by (symmetry; apply Nat.eqb_neq; lia). reflexivity.
  - intros d k Hd. unfold means_to_params, params_to_means. specialize (HN d Hd). field. lra.
Qed.
Example C262_case : fst (self_train 3 (fun d => INR (S d)) (fun _ => 1%R) 1 (fun _ a => Ok a) (fun _ a => Ok (false, a)) true 10 (w1, w1)) = Raise TypeError.
Proof.
  rewrite C262_fails_refuted; [reflexivity|lia| |lia]. intros d _. rewrite S_INR. pose proof (pos_INR d). lra.
Qed.

(** ** C263: the log of stm_uv_vecy_bohning *)
(** The iterations after which something is logged. *)
Definition logged (lf n : nat) : list nat := filter (fun i => i mod lf =? 0) (seq 0 n).
Lemma logged_S lf n : logged lf (S n) = logged lf n ++ (if n mod lf =? 0 then [n] else []).
Proof. unfold logged. rewrite seq_S, filter_app. cbn [filter Nat.add]. reflexivity. Qed.
Lemma logged_length lf n : 0 < lf -> n <= List.length (logged lf n) * lf < n + lf.
Proof.
  intros HL. induction n as [|n IH]; [cbn; lia|]. rewrite logged_S, app_length. pose proof (Nat.div_mod n lf ltac:(lia)) as E. pose proof (Nat.mod_upper_bound n lf ltac:(lia)) as B.
  set (c := List.length (logged lf n)) in *. destruct (Nat.eqb_spec (n mod lf) 0) as [Z|NZ]; cbn [List.length].
  - rewrite Z in E. generalize dependent (n / lf). intros q E. assert (X : c = q) by nia. subst q. nia.
  - rewrite Nat.add_0_r. split; [|lia]. destruct (Nat.eq_dec n (c * lf)) as [X|]; [|lia]. exfalso. apply NZ. rewrite X. apply Nat.mod_mul. lia.
Qed.
Lemma store_at {A} (x z : A) l m : 0 < m -> store (List.length l) x (l ++ repeat z m) = Ok ((l ++ [x]) ++ repeat z (m - 1)).
Proof.
  intros H. unfold store. rewrite app_length, repeat_length. replace (List.length l <? List.length l + m) with true by (symmetry; apply Nat.ltb_lt; lia).
  f_equal. rewrite firstn_app, Nat.sub_diag, firstn_all. cbn [firstn]. rewrite app_nil_r. destruct m as [|m]; [lia|]. cbn [repeat].
  rewrite skipn_app. replace (S (List.length l) - List.length l) with 1 by lia. rewrite skipn_all2 by lia. cbn [skipn app]. rewrite <- app_assoc. cbn [app]. replace (S m - 1) with m by lia. reflexivity.
Qed.
Lemma store_past {A} (x z : A) l : store (List.length l) x (l ++ repeat z 0) = Raise IndexError.
Proof. unfold store. cbn [repeat]. rewrite app_nil_r, Nat.ltb_irrefl. reflexivity. Qed.
Section log_lemmas.
  Context (lf : nat) (value like : nat -> R) (perp : R -> R).
  (** The perplexity falls by one or more between measurements, so that training goes on. *)
  Definition falls : Prop := forall i, (1 <= perp (like i) - perp (like (i + lf)))%R.
  Definition state (n size : nat) : logs :=
    (logged lf n ++ repeat 0 (size - List.length (logged lf n)),
     map value (logged lf n) ++ repeat 0%R (size - List.length (logged lf n)),
     map like (logged lf n) ++ repeat 0%R (size - List.length (logged lf n))).
  Lemma last_logged n : 0 < lf -> n mod lf = 0 -> 0 < n -> exists l, logged lf n = l ++ [n - lf] /\ lf <= n.
  Proof.
    intros HL Z HN. assert (LE : lf <= n) by (pose proof (Nat.div_mod n lf ltac:(lia)); assert (0 < n / lf) by (destruct (n / lf); lia); nia).
    exists (logged lf (n - lf)). split; [|exact LE].
    assert (M : (n - lf) mod lf = 0).
    { rewrite <- (Nat.mod_add (n - lf) 1 lf) by lia. replace (n - lf + 1 * lf) with n by lia. exact Z. }
    assert (G : forall j, j < lf -> logged lf (S (n - lf) + j) = logged lf (n - lf) ++ [n - lf]).
    { induction j as [|j IH]; intros Hj.
      - rewrite Nat.add_0_r, logged_S, M. reflexivity.
      - replace (S (n - lf) + S j) with (S (S (n - lf) + j)) by lia. rewrite logged_S, IH by lia.
        replace ((S (n - lf) + j) mod lf =? 0) with false; [apply app_nil_r|]. symmetry. apply Nat.eqb_neq.
        replace (S (n - lf) + j) with (S j + (n - lf)) by lia. rewrite <- Nat.add_mod_idemp_r, M, Nat.add_0_r by lia. rewrite Nat.mod_small by lia. lia. }
    specialize (G (lf - 1) ltac:(lia)). replace (S (n - lf) + (lf - 1)) with n in G by lia. exact G.
  Qed.
  Lemma loop_log size : 0 < lf -> falls -> forall todo itr, List.length (logged lf itr) <= size ->
    log_loop lf value like perp itr todo (List.length (logged lf itr)) (state itr size)
    = if List.length (logged lf (itr + todo)) <=? size then Ok (state (itr + todo) size) else Raise IndexError.
  Proof.
    intros HL HF. induction todo as [|todo IH]; intros itr HS; [rewrite Nat.add_0_r, (proj2 (Nat.leb_le _ _) HS); reflexivity|].
    replace (itr + S todo) with (S itr + todo) by lia. cbn [log_loop]. destruct (Nat.eqb_spec (itr mod lf) 0) as [Z|NZ].
    - assert (LS : logged lf (S itr) = logged lf itr ++ [itr]) by (rewrite logged_S, Z; reflexivity).
      assert (LN : List.length (logged lf (S itr)) = S (List.length (logged lf itr))) by (rewrite LS, app_length; cbn; lia).
      unfold state at 1. destruct (Nat.eq_dec (List.length (logged lf itr)) size) as [FULL|ROOM].
      + rewrite FULL, Nat.sub_diag. replace size with (List.length (map value (logged lf itr))) at 1 by (rewrite map_length; exact FULL).
        rewrite store_past. cbn [bind]. replace (_ <=? size) with false; [reflexivity|]. symmetry. apply Nat.leb_gt.
        unfold logged. rewrite seq_app, filter_app, app_length. fold (logged lf (S itr)). lia.
      + set (c := List.length (logged lf itr)) in *.
        assert (ST : forall A (x z : A) l, List.length l = c -> store c x (l ++ repeat z (size - c)) = Ok ((l ++ [x]) ++ repeat z (size - S c))).
        { intros A x z l H. rewrite <- H at 1. rewrite store_at by lia. do 2 f_equal. f_equal. lia. }
        rewrite !ST by (rewrite ?map_length; reflexivity). cbn [bind].
        specialize (IH (S itr) ltac:(lia)).
        replace ((1 <? c) && (20 <? itr) && rltb _ 1) with false.
        * rewrite <- IH, LN. f_equal. unfold state. rewrite LS, <- LS, LN, LS, !map_app. reflexivity.
        * symmetry. destruct (1 <? c) eqn:C1; [|reflexivity]. apply Nat.ltb_lt in C1. destruct (20 <? itr) eqn:C2; [|reflexivity]. apply Nat.ltb_lt in C2. cbn [andb].
          apply rltb_false. destruct (last_logged itr HL Z ltac:(lia)) as (l & LL & LE).
          assert (NT : nth (c - 1) ((map like (logged lf itr) ++ [like itr]) ++ repeat 0%R (size - S c)) 0%R = like (itr - lf)).
          { rewrite <- app_assoc, app_nth1 by (rewrite map_length; fold c; lia).
            assert (CL : c - 1 = List.length (map like l)) by (unfold c; rewrite LL, app_length, map_length; cbn; lia).
            rewrite LL, map_app, CL, app_nth2 by lia. rewrite Nat.sub_diag. reflexivity. }
          rewrite NT. specialize (HF (itr - lf)). replace (itr - lf + lf) with itr in HF by lia. exact HF.
    - assert (LS : logged lf (S itr) = logged lf itr) by (rewrite logged_S, (proj2 (Nat.eqb_neq _ _) NZ); apply app_nil_r).
      rewrite <- IH by (rewrite LS; exact HS). unfold state. rewrite LS. reflexivity.
  Qed.
End log_lemmas.
Lemma log_train_eq value like perp iterations lf : 0 < lf -> 0 < iterations -> falls lf like perp ->
  log_train value like perp (Z.of_nat iterations) (Z.of_nat lf)
  = if List.length (logged lf iterations) <=? iterations / lf then Ok (state lf value like iterations (iterations / lf)) else Raise IndexError.
Proof.
  intros HL HI HF. unfold log_train. replace (Z.of_nat lf =? 0)%Z with false by lia. rewrite <- Nat2Z.inj_div.
  replace (Z.of_nat (iterations / lf) <? 0)%Z with false by (symmetry; apply Z.ltb_ge, Nat2Z.is_nonneg). replace (Z.of_nat iterations <=? 0)%Z with false by lia. rewrite !Nat2Z.id.
  pose proof (loop_log lf value like perp (iterations / lf) HL HF iterations 0 (Nat.le_0_l _)) as E. cbn [Nat.add] in E. rewrite <- E. unfold state, logged. cbn [seq filter List.length map app]. rewrite Nat.sub_0_r. reflexivity.
Qed.
(** When the frequency divides the number of iterations, the log is complete. *)
Theorem C263_complete : forall value like perp iterations lf, 0 < lf -> 0 < iterations -> falls lf like perp -> iterations mod lf = 0 ->
  log_train value like perp (Z.of_nat iterations) (Z.of_nat lf)
  = Ok (logged lf iterations, map value (logged lf iterations), map like (logged lf iterations)).
Proof.
  intros value like perp iterations lf HL HI HF Z. rewrite log_train_eq by assumption. pose proof (logged_length lf iterations HL) as B.
  pose proof (Nat.div_mod iterations lf ltac:(lia)) as E. assert (LN : List.length (logged lf iterations) = iterations / lf) by nia.
  rewrite (proj2 (Nat.leb_le _ _)) by lia. unfold state. rewrite LN, Nat.sub_diag. cbn [repeat]. rewrite !app_nil_r. reflexivity.
Qed.
(** When it does not, training fails when there is no room for the last entry. *)
Theorem C263_other_frequencies_refuted : forall value like perp iterations lf, 0 < lf -> 0 < iterations -> falls lf like perp -> iterations mod lf <> 0 ->
  log_train value like perp (Z.of_nat iterations) (Z.of_nat lf) = Raise IndexError.
Proof.
  intros value like perp iterations lf HL HI HF Z. rewrite log_train_eq by assumption. pose proof (logged_length lf iterations HL) as B.
  pose proof (Nat.div_mod iterations lf ltac:(lia)) as E. rewrite (proj2 (Nat.leb_gt _ _)); [reflexivity|]. nia.
Qed.
(** When training stops early the last measurement is dropped from two of the arrays, and
    the third has zeros after the measurements. *)
Theorem C263_early_stop_refuted : forall value like perp, (perp (like 20%nat) - perp (like 30%nat) < 1)%R ->
  log_train value like perp 100 10 = Ok ([0; 10; 20], map value [0; 10; 20], map like [0; 10; 20; 30] ++ [0; 0; 0; 0; 0; 0]%R).
Proof.
  intros value like perp H. apply rltb_true in H. unfold log_train. change (Z.to_nat (100 / 10)) with 10. change (Z.to_nat 100) with 100. change (Z.to_nat 10) with 10.
  cbv -[rltb IZR Rminus]. cbv -[rltb IZR Rminus] in H. rewrite H. reflexivity.
Qed.
Theorem C263_no_frequency_refuted : forall value like perp iterations, log_train value like perp iterations 0 = Raise ZeroDivisionError.
Proof. reflexivity. Qed.
Example C263_case : falls 10 (fun i => INR i) (fun x => - x)%R /\
  log_train (fun i => INR i) (fun i => INR i) (fun x => - x)%R 15 10 = Raise IndexError /\
  exists l, log_train (fun i => INR i) (fun i => INR i) (fun x => - x)%R 20 10 = Ok ([0; 10], l, l).
Proof.
  assert (F : falls 10 (fun i => INR i) (fun x => - x)%R) by (intros i; rewrite plus_INR; cbn [INR]; lra).
  split; [exact F|]. split.
  - apply (C263_other_frequencies_refuted _ _ _ 15 10); [lia|lia|exact F|cbn; lia].
  - exists (map (fun i => INR i) [0; 10]). apply (C263_complete _ _ _ 20 10); [lia|lia|exact F|reflexivity].
Qed.
Example C257_case : forall psi, exists s', mtm1_train 2 2 1 1 w1 l0 n1 1 psi inv2r u1 v1 never 1 start1 = Ok s' /\ m_bytop s' 0 = (9 / 17)%R.
Proof.
  intros psi. destruct (run1 psi 1) as (s' & E & TT & _). exists s'. split; [exact E|]. rewrite (C257_by_topic _ _ _ _ _ _ _ _ _ _ _ _ _ _ _ _ _ _ E).
  destruct (TT 0 ltac:(lia)) as (X0 & _). destruct (TT 1 ltac:(lia)) as (Y0 & _). unfold vsum. cbn [seq map rsum]. rewrite X0, Y0. field.
Qed.
Example C258_case : forall psi, exists s', mtm1_train 2 2 1 1 w1 l0 n1 1 psi inv2r u1 v1 never 1 start1 = Ok s' /\
  (vsum 2 (fun d => m_post s' d 1%nat) - vsum 2 (fun d => m_post s' d 0%nat) = 3 / 17)%R.
Proof.
  intros psi. destruct (run1 psi 1) as (s' & E & _ & _ & C1 & C2 & _). exists s'. split; [exact E|].
  rewrite <- (C258_asymmetry 2 2 1 1 w1 l0 n1 1 psi inv2r u1 v1 never 1 start1 s' E ltac:(lia) eq_refl 0 1). rewrite C1, C2. field.
Qed.

Print Assumptions C255_same.
Print Assumptions C255_other_sizes_refuted.
Print Assumptions C256_words.
Print Assumptions C256_distributions.
Print Assumptions C256_links.
Print Assumptions C257_by_topic.
Print Assumptions C257_not_updated.
Print Assumptions C258_asymmetry.
Print Assumptions C260_few_documents_refuted.
Print Assumptions C257_stale_refuted.
Print Assumptions C258_symmetric_refuted.
Print Assumptions C259_query_refuted.
Print Assumptions C259_copy_equal.
Print Assumptions C259_copy_shares_refuted.
Print Assumptions C261_predicts_refuted.
Print Assumptions C262_fails_refuted.
Print Assumptions C262_nothing_to_do.
Print Assumptions C263_complete.
Print Assumptions C263_other_frequencies_refuted.
Print Assumptions C263_early_stop_refuted.
Print Assumptions C263_no_frequency_refuted.
