(** * Properties of the scikit-learn wrapper (C45, C89-C92). *)
From Coq Require Import List ZArith Arith Bool Lia.
From Verif Require Import Base SkModel SkProofs.
Import ListNotations.

Section P.
  Context {Mdl Qs Dat Y Cm V : Type}.
  Context (ops : module_ops Mdl Qs Dat Y Cm V) (heap : nat -> Dat)
          (split : nat -> Dat -> res (Dat * Dat)) (its qits : Z).
  Notation state := (sk Mdl Qs).
  Notation call := (call Qs Dat Y).
  Notation fit := (fit ops heap its).
  Notation transform := (transform ops heap qits).
  Notation fit_transform := (fit_transform ops heap its qits).
  Notation score := (score ops heap split qits).
  Notation find_query_state := (find_query_state ops heap qits).
  Notation perform := (perform ops heap split its qits).
  Notation after := (after ops heap split its qits).
  Notation after0 h := (after h (@fresh_sk Mdl Qs)).

  (** ** C45: nothing works before a fit *)
  Definition fits (c : call) : Prop :=
    match c with CFit _ _ | CFitTransform _ _ => True | _ => False end.

  Lemma unfitted_step : forall c s, ~ fits c -> model s = None ->
    snd (perform c s) = false /\ model (fst (perform c s)) = None.
  Proof.
    assert (HT : forall o x d s s' r, transform_ ops qits o x d s = (s', r) -> model s = None ->
               succeeds r = false /\ model s' = None).
    { intros o x d s s' r E M. apply transform_cases in E.
      destruct E as [_ [(e & -> & -> & _)|(y & m & m' & q & q' & _ & _ & E & _)]]; [auto|congruence]. }
    intros c s F M. unfold SkModel.perform. destruct c as [o x|o x|o x|x y yq me|x o p]; cbn [fits] in F; try tauto.
    - destruct (SkModel.transform _ _ _ o x s) as [s' r] eqn:E. eapply HT; eauto.
    - destruct (SkModel.score _ _ _ _ x y yq me s) as [s' r] eqn:E. cbn [fst snd].
      pose proof (score_cases _ _ _ _ _ _ _ _ _ _ _ E) as [_ [(E1 & _)|(_ & _ & _ & _ & N & _)]]; [|congruence].
      split; [|congruence]. rewrite M in E1.
      unfold SkModel.score in E.
      destruct y as [y|], yq as [q|]; cbn in E.
      + injection E as <- <-. reflexivity.
      + injection E as <- <-. rewrite M. destruct (is_point_estimate me); reflexivity.
      + injection E as <- <-. unfold components. cbn [ticked model]. rewrite M.
        destruct (is_point_estimate me); reflexivity.
      + destruct (negb (is_doc_completion me)).
        * destruct (SkModel.transform_ _ _ no_opts _ _ s) as [s1 ry] eqn:Et.
          apply HT in Et; [|exact M]. destruct Et as [R1 _].
          injection E as <- <-. destruct ry; [discriminate R1|reflexivity].
        * destruct (split _ _) as [[d1 d2]|e]; [|injection E as <- <-; reflexivity].
          destruct (SkModel.transform_ _ _ no_opts _ _ s) as [s1 ry] eqn:Et.
          apply HT in Et; [|exact M]. destruct Et as [R1 _].
          injection E as <- <-. destruct ry; [discriminate R1|reflexivity].
    - destruct (SkModel.find_query_state _ _ _ x o p s) as [s' r] eqn:E. cbn [fst snd].
      apply find_cases in E. destruct E as (s1 & ry & Et & Em & _ & E).
      apply HT in Et; [|exact M]. destruct Et as [R1 M1].
      destruct E as [(e & _ & -> & _)|(y & -> & _)]; [|discriminate R1]. split; [reflexivity|congruence].
  Qed.

  Theorem C45_nothing_works_before_fit : forall h, Forall (fun c => ~ fits c) h ->
    forall h1 c h2, h = h1 ++ c :: h2 ->
      snd (perform c (after0 h1)) = false /\ components ops (after0 h1) = Raise AttributeError.
  Proof.
    assert (M : forall h, Forall (fun c => ~ fits c) h -> model (after0 h) = None).
    { induction h as [|c h IH] using rev_ind; intros F; [reflexivity|].
      apply Forall_app in F. destruct F as [F1 F2]. inversion F2; subst.
      rewrite after_snoc. apply unfitted_step; auto. }
    intros h F h1 c h2 ->. apply Forall_app in F. destruct F as [F1 F2]. inversion F2; subst.
    split; [apply unfitted_step; auto|]. unfold components. rewrite M; auto.
  Qed.

  (** Once there is a model there always is one. *)
  Theorem C45_model_never_lost : forall h h', model (after0 h) <> None -> model (after0 (h ++ h')) <> None.
  Proof.
    intros h h' P. induction h' as [|c h' IH] using rev_ind; [rewrite app_nil_r; exact P|].
    rewrite app_assoc, after_snoc. revert IH. generalize (after0 (h ++ h')). intros s IH. clear P.
    assert (HT : forall o x d s s' r, transform_ ops qits o x d s = (s', r) -> model s <> None -> model s' <> None).
    { intros o0 x0 d0 s0 s' r E P. apply transform_cases in E.
      destruct E as [_ [(e & _ & -> & _)|(y & m & m' & q & q' & _ & _ & _ & -> & _)]]; congruence. }
    assert (HF : forall o x s s' r, fit o x s = (s', r) -> model s <> None -> model s' <> None).
    { intros o0 x0 s0 s' r E P. apply fit_cases in E. destruct E as [_ [E _]].
      destruct (model s0) as [m|]; [|congruence]. destruct (E m eq_refl) as [m' ->]. congruence. }
    unfold SkModel.perform. destruct c as [o x|o x|o x|x y yq me|x o p].
    - destruct (SkModel.fit _ _ _ o x s) as [s' r] eqn:E. eapply HF; eauto.
    - destruct (SkModel.transform _ _ _ o x s) as [s' r] eqn:E. eapply HT; eauto.
    - destruct (SkModel.fit_transform _ _ _ _ o x s) as [s' r] eqn:E. cbn [fst].
      unfold SkModel.fit_transform in E.
      destruct (SkModel.fit ops heap its _ x s) as [s1 [[]|e]] eqn:E1.
      + eapply HT; [exact E|]. eapply HF; eauto.
      + injection E as <- _. eapply HF; eauto.
    - destruct (SkModel.score _ _ _ _ x y yq me s) as [s' r] eqn:E. cbn [fst].
      apply score_cases in E.
      destruct E as [_ [(-> & _)|(_ & _ & _ & _ & _ & d & m & q & m' & q' & _ & -> & _)]]; congruence.
    - destruct (SkModel.find_query_state _ _ _ x o p s) as [s' r] eqn:E. cbn [fst].
      apply find_cases in E. destruct E as (s1 & ry & Et & -> & _). eapply HT; eauto.
  Qed.

  (** ** C45: resuming *)
  (** The call asks to remember the inference it does on the caller's dataset [n]. *)
  Definition remembers (c : call) (n : nat) : Prop :=
    match c with
    | CFit o (ADataSet m) | CTransform o (ADataSet m) => m = n /\ o_persist o = true
    | CFind (ADataSet m) _ p => m = n /\ p = true
    | _ => False
    end.
  (** The call infers, and is not the one that puts back what was remembered. *)
  Definition infers (c : call) : Prop :=
    match c with
    | CFit _ _ | CTransform _ _ | CFitTransform _ _ => True
    | CScore _ None None _ => True
    | CScore _ _ _ _ => False
    | CFind _ _ p => p = true
    end.
  Definition simple (c : call) : Prop := match c with CFitTransform _ _ => False | _ => True end.

  Lemma remembered_origin : forall h n, Forall simple h -> last_x (after0 h) = Some (Own n) ->
    exists h1 c h2, h = h1 ++ c :: h2 /\ remembers c n /\ snd (perform c (after0 h1)) = true /\
      last_q (after0 h) = last_q (after0 (h1 ++ [c])) /\
      forall h3 c' h4, h2 = h3 ++ c' :: h4 -> infers c' -> snd (perform c' (after0 (h1 ++ c :: h3))) = false.
  Proof.
    induction h as [|c h IH] using rev_ind; intros n F L; [discriminate L|].
    apply Forall_app in F. destruct F as [F Fc]. inversion Fc as [|? ? Sc _]; subst. clear Fc.
    pose proof (paired_after ops heap split its qits h (@fresh_sk Mdl Qs)
      ltac:(unfold paired; cbn; tauto)) as PA.
    rewrite after_snoc in L.
    assert (Here : remembers c n -> snd (perform c (after0 h)) = true ->
      exists h1 c0 h2, h ++ [c] = h1 ++ c0 :: h2 /\ remembers c0 n /\ snd (perform c0 (after0 h1)) = true /\
      last_q (after0 (h ++ [c])) = last_q (after0 (h1 ++ [c0])) /\
      forall h3 c' h4, h2 = h3 ++ c' :: h4 -> infers c' -> snd (perform c' (after0 (h1 ++ c0 :: h3))) = false).
    { intros R S. exists h, c, []. repeat split; auto. intros h3 c' h4 E. destruct h3; discriminate E. }
    assert (There : last_x (after0 h) = Some (Own n) ->
      last_q (fst (perform c (after0 h))) = last_q (after0 h) ->
      (infers c -> snd (perform c (after0 h)) = false) ->
      exists h1 c0 h2, h ++ [c] = h1 ++ c0 :: h2 /\ remembers c0 n /\ snd (perform c0 (after0 h1)) = true /\
      last_q (after0 (h ++ [c])) = last_q (after0 (h1 ++ [c0])) /\
      forall h3 c' h4, h2 = h3 ++ c' :: h4 -> infers c' -> snd (perform c' (after0 (h1 ++ c0 :: h3))) = false).
    { intros L' Q I. destruct (IH n F L') as (h1 & c0 & h2 & -> & R & S & EQ & A).
      exists h1, c0, (h2 ++ [c]). split; [rewrite <- app_assoc; reflexivity|].
      split; [exact R|]. split; [exact S|]. split.
      - rewrite after_snoc, Q. exact EQ.
      - intros h3 c' h4 E Ic.
        destruct h4 as [|c4 h4 _] using rev_ind.
        + apply app_inj_tail in E. destruct E as [<- <-]. apply I, Ic.
        + assert (E' : h2 = h3 ++ c' :: h4 /\ c = c4).
          { apply app_inj_tail. rewrite E, <- app_assoc. reflexivity. }
          destruct E' as [E' _]. exact (A _ _ _ E' Ic). }
    clear IH. set (s := after0 h) in *. clearbody s.
    unfold SkModel.perform in *. destruct c as [o x|o x|o x|x y yq me|x o p]; cbn [simple] in Sc; try tauto.
    - destruct (SkModel.fit ops heap its o x s) as [s' r] eqn:E. cbn [fst snd] in *.
      apply fit_cases in E.
      destruct E as [_ [_ [(e & -> & E1 & E2 & _)|(m & m' & q & q' & -> & _ & _ & _ & _ & E1 & E2)]]].
      + apply There; [congruence|congruence|reflexivity].
      + apply Here; [|reflexivity]. destruct (o_persist o) eqn:P; [|congruence].
        rewrite E1 in L. destruct x; cbn in L; [|congruence]. cbn. split; congruence.
    - destruct (SkModel.transform ops heap qits o x s) as [s' r] eqn:E. cbn [fst snd] in *.
      apply transform_cases in E.
      destruct E as [_ [(e & -> & _ & E1 & E2)|(y & m & m' & q & q' & -> & _ & _ & _ & _ & _ & E1 & E2)]].
      + apply There; [congruence|congruence|reflexivity].
      + apply Here; [|reflexivity]. destruct (o_persist o) eqn:P; [|congruence].
        rewrite E1 in L. destruct x; cbn in L; [|congruence]. cbn. split; congruence.
    - destruct (SkModel.score ops heap split qits x y yq me s) as [s' r] eqn:E. cbn [fst snd] in *.
      pose proof (score_cases _ _ _ _ _ _ _ _ _ _ _ E) as [_ [(_ & E1 & E2)|(_ & _ & E1 & _)]]; [|congruence].
      apply There; [congruence|congruence|].
      destruct y, yq; cbn; try tauto. intros _.
      (* the topics were not inferred, else the state would be forgotten *)
      unfold SkModel.score in E.
      destruct (negb (is_doc_completion me)).
      + destruct (SkModel.transform_ ops qits no_opts _ _ s) as [s1 ry] eqn:Et. injection E as <- <-.
        apply transform_cases in Et.
        destruct Et as [_ [(e & -> & _)|(y & m & m' & q & q' & _ & _ & _ & _ & _ & _ & E3 & _)]]; [reflexivity|].
        cbn in E3. congruence.
      + destruct (split _ _) as [[d1 d2]|e]; [|injection E as <- <-; reflexivity].
        destruct (SkModel.transform_ ops qits no_opts _ _ s) as [s1 ry] eqn:Et. injection E as <- <-.
        apply transform_cases in Et.
        destruct Et as [_ [(e & -> & _)|(y & m & m' & q & q' & _ & _ & _ & _ & _ & _ & E3 & _)]]; [reflexivity|].
        cbn in E3. congruence.
    - destruct (SkModel.find_query_state ops heap qits x o p s) as [s' r] eqn:E. cbn [fst snd] in *.
      apply find_cases in E. destruct E as (s1 & ry & Et & _ & _ & E).
      apply transform_cases in Et.
      destruct E as [(e & -> & -> & ->)|(y & -> & -> & E1 & E2)].
      + destruct Et as [_ [(e' & _ & _ & E1 & E2)|(y & m & m' & q & q' & D & _)]]; [|discriminate D].
        apply There; [congruence|congruence|reflexivity].
      + destruct Et as [_ [(e' & D & _)|(y' & m & m' & q & q' & _ & _ & _ & _ & _ & _ & E3 & E4)]]; [discriminate D|].
        destruct p.
        * rewrite (E1 eq_refl) in *. apply Here; [|reflexivity]. rewrite E3 in L. cbn in L.
          destruct x; cbn in L; [|congruence]. cbn. split; congruence.
        * destruct (E2 eq_refl) as [A B]. apply There.
          -- rewrite A in L. destruct (last_q s); [exact L|discriminate L].
          -- exact B.
          -- cbn. discriminate.
  Qed.

  (** A transform that resumes refines exactly the query state inferred by the
      last inference, which asked to be remembered and was on the same dataset;
      any inference after it failed. *)
  Theorem C45_resume_continues : forall h n o y, Forall simple h -> o_resume o = true ->
    snd (transform o (ADataSet n) (after0 h)) = Ok y ->
    exists h1 c h2 q m m' q', h = h1 ++ c :: h2 /\ remembers c n /\ snd (perform c (after0 h1)) = true /\
      last_q (after0 (h1 ++ [c])) = Some q /\
      (forall h3 c' h4, h2 = h3 ++ c' :: h4 -> infers c' -> snd (perform c' (after0 (h1 ++ c :: h3))) = false) /\
      model (after0 h) = Some m /\
      m_query ops (tick (after0 h)) (heap n) m q (iters_or (o_iters o) qits) = Ok (m', q') /\
      y = topics_of ops q'.
  Proof.
    intros h n o y F R H.
    destruct (SkModel.transform ops heap qits o (ADataSet n) (after0 h)) as [s' r] eqn:E. cbn in H. subst r.
    apply transform_cases in E.
    destruct E as [_ [(e & D & _)|(y' & m & m' & q & q' & Y1 & Y2 & M & _ & Q & T & _)]]; [discriminate D|].
    rewrite R in Q. unfold make_or_resume in Q.
    destruct (last_x (after0 h)) as [i|] eqn:L; [|discriminate Q].
    destruct (oid_eqb i _) eqn:O; [|discriminate Q]. apply oid_eqb_eq in O. cbn in O. subst i.
    destruct (last_q (after0 h)) as [q0|] eqn:LQ; [|discriminate Q]. injection Q as ->.
    destruct (remembered_origin h n F L) as (h1 & c & h2 & E & Rm & S & EQ & A).
    exists h1, c, h2, q, m, m', q'. repeat split; auto; congruence.
  Qed.

  (** Whenever the remembered dataset is another one, or there is none, fit and
      transform refuse to resume and transform changes nothing. *)
  Theorem C45_resume_elsewhere : forall s o x, o_resume o = true -> last_x s <> Some (ident (tick s) x) ->
    (model s <> None -> snd (fit o x s) = Raise ValueError) /\
    snd (transform o x s) = Raise ValueError /\
    (let s' := fst (transform o x s) in model s' = model s /\ last_x s' = last_x s /\ last_q s' = last_q s).
  Proof.
    intros s o x R N.
    assert (MR : forall s1, last_x s1 = last_x s ->
       make_or_resume ops (tick s) s1 (ident (tick s) x) (contents heap x) true = Raise ValueError).
    { intros s1 E. unfold make_or_resume. rewrite E. destruct (last_x s) as [i|]; [|reflexivity].
      destruct (oid_eqb i _) eqn:O; [|reflexivity]. apply oid_eqb_eq in O. congruence. }
    split; [|split].
    - intros M. unfold SkModel.fit. cbn [ticked model last_x last_q tick].
      destruct (model s); [|congruence]. rewrite R, MR; reflexivity.
    - unfold SkModel.transform, transform_. cbn [ticked model]. destruct (model s) eqn:M; [|reflexivity].
      rewrite R, MR; reflexivity.
    - unfold SkModel.transform, transform_. cbn [ticked model]. destruct (model s) eqn:M.
      + rewrite R, MR by reflexivity. cbn. auto.
      + cbn. auto.
  Qed.

  (** fit_transform leaves the state that its fit, or its fit and its transform, leave. *)
  Theorem C45_fit_transform_is_two_calls : forall o x s,
    after [CFitTransform o x] s =
      after (CFit (mkOpts (o_iters o) (o_resume o) true) x ::
             if snd (perform (CFit (mkOpts (o_iters o) (o_resume o) true) x) s)
             then [CTransform (mkOpts (o_iters o) true (o_persist o)) x] else []) s.
  Proof.
    intros o x s. unfold SkModel.after. cbn [fold_left SkModel.perform]. unfold SkModel.fit_transform.
    destruct (SkModel.fit ops heap its _ x s) as [s1 [[]|e]]; cbn [fst snd succeeds fold_left SkModel.perform].
    - destruct (SkModel.transform _ _ _ _ _ s1); reflexivity.
    - reflexivity.
  Qed.

  (** ** C89: fit_transform *)
  Theorem C89_matrices_never_work : forall o m s y, snd (fit_transform o (AMatrix m) s) <> Ok y.
  Proof.
    intros o m s y H. unfold SkModel.fit_transform in H.
    destruct (SkModel.fit ops heap its _ (AMatrix m) s) as [s1 [[]|e]] eqn:E; [|discriminate H].
    apply fit_cases in E. destruct E as [T [_ [(e & D & _)|(m0 & m' & q & q' & _ & _ & _ & _ & _ & L & _)]]]; [discriminate D|].
    destruct (C45_resume_elsewhere s1 (mkOpts (o_iters o) true (o_persist o)) (AMatrix m)) as (_ & R & _); cbn; auto.
    - rewrite L. cbn. intros K. injection K as K. lia.
    - rewrite R in H. discriminate H.
  Qed.

  Theorem C89_matrices_error : forall o m s,
    snd (fit (mkOpts (o_iters o) (o_resume o) true) (AMatrix m) s) = Ok tt ->
    snd (fit_transform o (AMatrix m) s) = Raise ValueError.
  Proof.
    intros o m s H. unfold SkModel.fit_transform.
    destruct (SkModel.fit ops heap its _ (AMatrix m) s) as [s1 [[]|e]] eqn:E; [|discriminate H].
    apply fit_cases in E. destruct E as [T [_ [(e & D & _)|(m0 & m' & q & q' & _ & _ & _ & _ & _ & L & _)]]]; [discriminate D|].
    destruct (C45_resume_elsewhere s1 (mkOpts (o_iters o) true (o_persist o)) (AMatrix m)) as (_ & R & _); cbn; auto.
    rewrite L. cbn. intros K. injection K as K. lia.
  Qed.

  (** On a DataSet, the topics are those of the query that starts from the
      trained model and the training set's own query state. *)
  Theorem C89_datasets_work : forall n s o q0 m m1 q1 m2 q2, model s = Some m -> o_resume o = false ->
    new_query ops (tick s) (heap n) m = Ok q0 ->
    m_train ops (tick s) (heap n) m q0 (iters_or (o_iters o) its) = Ok (m1, q1) ->
    m_query ops (S (tick s)) (heap n) m1 q1 (iters_or (o_iters o) qits) = Ok (m2, q2) ->
    snd (fit_transform o (ADataSet n) s) = Ok (topics_of ops q2) /\
    model (fst (fit_transform o (ADataSet n) s)) = Some m2.
  Proof.
    intros n s o q0 m m1 q1 m2 q2 M R N T Q. unfold SkModel.fit_transform, SkModel.fit.
    cbn [ticked model last_x last_q tick]. rewrite M. cbn [o_resume]. rewrite R.
    unfold make_or_resume. cbn [model contents o_iters o_persist]. rewrite N, T.
    unfold SkModel.transform, transform_, set_or_clear. cbn [ticked model last_x last_q tick o_resume o_iters contents ident].
    unfold make_or_resume. cbn [ticked last_x last_q]. rewrite oid_eqb_refl, Q.
    destruct (o_persist o); auto.
  Qed.

  (** A matrix can never be resumed, whatever happened before. *)
  Theorem C89_matrices_never_resume : forall h o m, o_resume o = true ->
    (forall y, snd (transform o (AMatrix m) (after0 h)) <> Ok y) /\
    (forall u, snd (fit o (AMatrix m) (after0 h)) <> Ok u).
  Proof.
    assert (I : forall h t, last_x (after0 h) = Some (Wrapped t) -> t < tick (after0 h)).
    { induction h as [|c h IH] using rev_ind; intros t L; [discriminate L|].
      rewrite after_snoc in *. revert IH L. generalize (after0 h). intros s IH L.
      assert (HT : forall o x d s s' r t, transform_ ops qits o x d s = (s', r) ->
                 (forall t, last_x s = Some (Wrapped t) -> t < tick s) ->
                 (forall t, x = Wrapped t -> t < S (tick s)) ->
                 last_x s' = Some (Wrapped t) -> t < tick s').
      { clear. intros o x d s s' r t E P X L. apply transform_cases in E.
        destruct E as [T [(e & _ & _ & L1 & _)|(y & m & m' & q & q' & _ & _ & _ & _ & _ & _ & L1 & _)]]; rewrite L1 in L.
        - apply P in L. lia.
        - destruct (o_persist o); [|discriminate L]. injection L as L. apply X in L. lia. }
      assert (HF : forall o x s s' r, fit o x s = (s', r) ->
                 (forall t, last_x s = Some (Wrapped t) -> t < tick s) ->
                 forall t, last_x s' = Some (Wrapped t) -> t < tick s').
      { clear. intros o x s s' r E P t L. apply fit_cases in E.
        destruct E as [T [_ [(e & _ & L1 & _)|(m & m' & q & q' & _ & _ & _ & _ & _ & L1 & _)]]]; rewrite L1 in L.
        - apply P in L. lia.
        - destruct (o_persist o); [|discriminate L]. destruct x; cbn in L; [discriminate L|].
          injection L as <-. lia. }
      assert (W : forall t0 x t, ident (Dat := Dat) t0 x = Wrapped t -> t < S t0).
      { intros t0 [k|k] t1; cbn; intros K; [discriminate K|]. injection K as <-. lia. }
      pose proof (tick_mono ops heap split its qits c s) as TM.
      unfold SkModel.perform in *. destruct c as [o x|o x|o x|x y yq me|x o p].
      - destruct (SkModel.fit _ _ _ o x s) as [s' r] eqn:E. eapply HF; eauto.
      - destruct (SkModel.transform _ _ _ o x s) as [s' r] eqn:E. eapply HT; eauto.
      - destruct (SkModel.fit_transform _ _ _ _ o x s) as [s' r] eqn:E. cbn [fst] in *.
        unfold SkModel.fit_transform in E.
        destruct (SkModel.fit ops heap its _ x s) as [s1 [[]|e]] eqn:E1.
        + eapply HT; [exact E| |apply W|exact L]. eapply HF; eauto.
        + injection E as <- _. eapply HF; eauto.
      - destruct (SkModel.score _ _ _ _ x y yq me s) as [s' r] eqn:E. cbn [fst] in *.
        apply score_cases in E. destruct E as [_ [(_ & L1 & _)|(_ & _ & L1 & _)]]; [|congruence].
        rewrite L1 in L. apply IH in L. lia.
      - destruct (SkModel.find_query_state _ _ _ x o p s) as [s' r] eqn:E. cbn [fst] in *.
        apply find_cases in E. destruct E as (s1 & ry & Et & _ & T & E).
        assert (K : forall t, last_x s1 = Some (Wrapped t) -> t < tick s1).
        { intros t1 L1. eapply HT; [exact Et|exact IH|apply W|exact L1]. }
        destruct E as [(e & _ & _ & ->)|(y & _ & _ & E1 & E2)]; [auto|].
        destruct p.
        + rewrite (E1 eq_refl) in *. auto.
        + destruct (E2 eq_refl) as [A _]. rewrite A in L. destruct (last_q s); [|discriminate L].
          apply IH in L. lia. }
    intros h o m R.
    assert (N : last_x (after0 h) <> Some (ident (tick (after0 h)) (AMatrix m))).
    { cbn. intros K. apply I in K. lia. }
    split.
    - intros y H. destruct (C45_resume_elsewhere _ o (AMatrix m) R N) as (_ & E & _). rewrite E in H. discriminate H.
    - intros u H. destruct (SkModel.fit ops heap its o (AMatrix m) (after0 h)) as [s' r] eqn:E. cbn in H. subst r.
      apply fit_cases in E. destruct E as [_ [_ [(e & D & _)|(m0 & m' & q & q' & _ & _ & _ & Q & _)]]]; [discriminate D|].
      rewrite R in Q. unfold make_or_resume in Q. cbn [last_x] in Q.
      destruct (last_x (after0 h)) as [i|]; [|discriminate Q].
      destruct (oid_eqb i _) eqn:O; [|discriminate Q]. apply oid_eqb_eq in O. congruence.
  Qed.

  (** ** C90: expected likelihood without assignments *)
  Theorem C90_expected_score_needs_query_state : forall x m s v, is_point_estimate m = false ->
    snd (score x None None m s) <> Ok v.
  Proof.
    intros x m s v P H. unfold SkModel.score in H.
    destruct (negb (is_doc_completion m)) eqn:D.
    - destruct (SkModel.transform_ ops qits no_opts _ _ s) as [s1 [y|e]]; cbn [snd bind] in H; [|discriminate H].
      rewrite P in H. discriminate H.
    - destruct m; discriminate.
  Qed.

  Theorem C90_expected_score_error : forall x m s y, is_point_estimate m = false ->
    snd (transform no_opts x s) = Ok y ->
    snd (score x None None m s) = Raise UnboundLocalError.
  Proof.
    intros x m s y P H. unfold SkModel.score.
    replace (is_doc_completion m) with false by (destruct m; try discriminate P; reflexivity).
    cbn [negb]. unfold SkModel.transform in H.
    destruct (SkModel.transform_ ops qits no_opts _ _ s) as [s1 [y'|e]]; cbn [snd] in *; [|discriminate H].
    cbn [bind]. rewrite P. reflexivity.
  Qed.

  (** ** C91: what scoring and transforming change *)
  (** As documented, queries keep the model's parameters. *)
  Definition query_keeps_model : Prop :=
    forall t d m q i m' q', m_query ops t d m q i = Ok (m', q') -> m' = m.

  Theorem C91_model_kept : query_keeps_model -> forall c s, ~ fits c -> model (fst (perform c s)) = model s.
  Proof.
    intros K c s F.
    assert (HT : forall o x d s s' r, transform_ ops qits o x d s = (s', r) -> model s' = model s).
    { intros o x d s0 s' r E. apply transform_cases in E.
      destruct E as [_ [(e & _ & -> & _)|(y & m & m' & q & q' & _ & _ & E1 & E2 & _ & E3 & _)]]; [reflexivity|].
      apply K in E3. congruence. }
    unfold SkModel.perform. destruct c as [o x|o x|o x|x y yq me|x o p]; cbn [fits] in F; try tauto.
    - destruct (SkModel.transform _ _ _ o x s) as [s' r] eqn:E. eapply HT; eauto.
    - destruct (SkModel.score _ _ _ _ x y yq me s) as [s' r] eqn:E. cbn [fst].
      apply score_cases in E.
      destruct E as [_ [(-> & _)|(_ & _ & _ & _ & _ & d & m & q & m' & q' & E1 & E2 & E3)]]; [reflexivity|].
      apply K in E3. congruence.
    - destruct (SkModel.find_query_state _ _ _ x o p s) as [s' r] eqn:E. cbn [fst].
      apply find_cases in E. destruct E as (s1 & ry & Et & -> & _). eapply HT; eauto.
  Qed.

  Theorem C91_score_given_assignments_keeps_all : forall x y yq m s, (y <> None \/ yq <> None) ->
    let s' := fst (score x y yq m s) in
    model s' = model s /\ last_x s' = last_x s /\ last_q s' = last_q s.
  Proof.
    intros x y yq m s H. destruct (SkModel.score ops heap split qits x y yq m s) as [s' r] eqn:E. cbn [fst].
    apply score_cases in E. destruct E as [_ [E|(-> & -> & _)]]; [exact E|].
    destruct H; congruence.
  Qed.

  (** A score that has to infer the assignments makes resuming impossible. *)
  Theorem C91_score_forgets : forall x m s v o x', snd (score x None None m s) = Ok v -> o_resume o = true ->
    snd (transform o x' (fst (score x None None m s))) = Raise ValueError.
  Proof.
    intros x m s v o x' H R. destruct (SkModel.score ops heap split qits x None None m s) as [s' r] eqn:E.
    cbn [fst snd] in *. subst r.
    assert (L : last_x s' = None).
    { pose proof (score_cases _ _ _ _ _ _ _ _ _ _ _ E) as [_ [_|(_ & _ & L & _)]]; [|exact L].
      unfold SkModel.score in E. destruct (negb (is_doc_completion m)).
      - destruct (SkModel.transform_ ops qits no_opts _ _ s) as [s1 ry] eqn:Et. injection E as <- E2.
        apply transform_cases in Et.
        destruct Et as [_ [(e & -> & _)|(y & m1 & m' & q & q' & _ & _ & _ & _ & _ & _ & E3 & _)]]; [discriminate E2|exact E3].
      - destruct (split _ _) as [[d1 d2]|e]; [|discriminate E].
        destruct (SkModel.transform_ ops qits no_opts _ _ s) as [s1 ry] eqn:Et. injection E as <- E2.
        apply transform_cases in Et.
        destruct Et as [_ [(e & -> & _)|(y & m1 & m' & q & q' & _ & _ & _ & _ & _ & _ & E3 & _)]]; [discriminate E2|exact E3]. }
    apply C45_resume_elsewhere; [exact R|]. congruence.
  Qed.

  (** ** C92: finding a query state without persisting it *)
  Theorem C92_find_query_state_restores : forall h x o,
    let s := after0 h in let s' := fst (find_query_state x o false s) in
    last_x s' = last_x s /\ last_q s' = last_q s.
  Proof.
    intros h x o s s'. subst s'.
    assert (P : paired s). { apply paired_after. unfold paired; cbn; tauto. }
    clearbody s.
    destruct (SkModel.find_query_state ops heap qits x o false s) as [s' r] eqn:E. cbn [fst].
    apply find_cases in E. destruct E as (s1 & ry & Et & _ & _ & E).
    destruct E as [(e & -> & -> & ->)|(y & _ & _ & _ & E2)].
    - apply transform_cases in Et. destruct Et as [_ [(e' & _ & _ & E1 & E2)|(y & m & m' & q & q' & D & _)]]; [auto|discriminate D].
    - destruct (E2 eq_refl) as [A B]. split; [|exact B]. rewrite A.
      destruct (last_q s) eqn:Q; [reflexivity|]. symmetry. apply P. exact Q.
  Qed.

  (** The query state it returns is the one whose topics a transform returns. *)
  Theorem C92_find_query_state_result : forall x o p s q, snd (find_query_state x o p s) = Ok q ->
    exists q', q = Some q' /\ forall b, snd (transform (mkOpts (o_iters o) (o_resume o) b) x s) = Ok (topics_of ops q').
  Proof.
    intros x o p s q H.
    destruct (SkModel.find_query_state ops heap qits x o p s) as [s' r] eqn:E. cbn in H. subst r.
    apply find_cases in E. destruct E as (s1 & ry & Et & _ & _ & [(e & _ & D & _)|(y & -> & R & _)]); [discriminate D|].
    injection R as ->. unfold SkModel.transform in *.
    pose proof (transform_cases _ _ _ _ _ _ _ _ Et) as [_ [(e' & D & _)|(y' & m & m' & q & q' & _ & _ & E1 & _ & E2 & E3 & _ & E4)]]; [discriminate D|].
    cbn in E4. exists q'. split; [exact E4|]. intros b. unfold transform_.
    cbn [ticked model o_resume o_iters]. rewrite E1. cbn [o_resume o_iters] in E2, E3.
    change (make_or_resume ops (tick s) (ticked s)) with (make_or_resume ops (tick s) s).
    rewrite E2, E3. reflexivity.
  Qed.
End P.

(** ** A concrete module *)
(** Datasets are numbers, the model is the sum of what it was trained on, the
    query state is a pair of the dataset and the number of its refinements.
    Training refuses datasets of 100 or more. *)
Definition demo_ops : module_ops nat (nat * nat) nat (nat * nat) nat nat :=
  mkOps
    (fun t d => Ok 0)
    (fun t d m => Ok (d, 0))
    (fun t d m q i => if d <? 100 then Ok (m + d, (fst q, S (snd q))) else Raise LinAlgError)
    (fun t d m q i => Ok (m, (fst q, S (snd q))))
    (fun q => q) (fun m => m) true
    (fun d y c => Ok (d + fst y + snd y + c))
    (fun d m q => Ok (d + m + snd q))
    (fun v d => Ok (v * d)).
Definition demo_heap (n : nat) : nat := n * 10.
Definition demo_split (t d : nat) : res (nat * nat) := Ok (d / 2, d - d / 2).

Definition dfit := fit demo_ops demo_heap 1000.
Definition dtransform := transform demo_ops demo_heap 100.
Definition dafter h := after demo_ops demo_heap demo_split 1000 100 h fresh_sk.
Definition keep : opts := mkOpts None false true.
Definition resume : opts := mkOpts None true false.

(** ** C45 refuted: a fit that failed still leaves a model to transform with. *)
Theorem C45_transform_needs_successful_fit_refuted :
  exists (x : arg nat) (o : opts) s1 e,
    dfit o x fresh_sk = (s1, Raise e) /\ exists y, snd (dtransform no_opts (ADataSet 1) s1) = Ok y /\
    components demo_ops s1 = Ok 0.
Proof.
  exists (ADataSet 10), no_opts. do 2 eexists. split; [reflexivity|]. eexists. split; reflexivity.
Qed.

Theorem C89_fit_transform_on_matrices_refuted :
  exists m : nat, snd (dfit no_opts (AMatrix m) fresh_sk) = Ok tt /\
    snd (fit_transform demo_ops demo_heap 1000 100 no_opts (AMatrix m) fresh_sk) = Raise ValueError.
Proof. exists 7. split; reflexivity. Qed.

Theorem C90_score_without_assignments_refuted :
  exists (x : arg nat) s, snd (dfit no_opts x fresh_sk) = Ok tt /\ s = fst (dfit no_opts x fresh_sk) /\
    snd (score demo_ops demo_heap demo_split 100 x None None LLExpected s) = Raise UnboundLocalError /\
    exists v, snd (score demo_ops demo_heap demo_split 100 x None None LLPoint s) = Ok v.
Proof. exists (ADataSet 3). eexists. repeat split. eexists. reflexivity. Qed.

Theorem C91_scoring_keeps_resumability_refuted :
  exists (x : arg nat) s, s = fst (dfit keep x fresh_sk) /\
    (exists y, snd (dtransform resume x s) = Ok y) /\
    exists v, snd (score demo_ops demo_heap demo_split 100 x None None PerpPoint s) = Ok v /\
    snd (dtransform resume x (fst (score demo_ops demo_heap demo_split 100 x None None PerpPoint s))) = Raise ValueError.
Proof.
  exists (ADataSet 3). eexists. split; [reflexivity|]. split; [eexists; reflexivity|].
  eexists. split; reflexivity.
Qed.

(** ** Examples *)
Definition d1 : arg nat := ADataSet 1.
Definition d2 : arg nat := ADataSet 2.
Example C45_case_before_fit :
  snd (perform demo_ops demo_heap demo_split 1000 100 (CScore d1 None (Some (3, 1)) LLPoint)
         (dafter [CTransform no_opts d1])) = false.
Proof. reflexivity. Qed.
Example C45_case_resume :
  exists h y, h = [CFit keep d1; CTransform keep d2; CFit no_opts (ADataSet 10); CFind d1 no_opts false] /\
    Forall simple h /\ snd (dtransform resume d2 (dafter h)) = Ok y /\ y = (20, 2).
Proof. eexists _, _. split; [reflexivity|]. split; [repeat constructor|]. split; reflexivity. Qed.
Example C45_case_elsewhere : snd (dtransform resume d2 (dafter [CFit keep d1])) = Raise ValueError.
Proof. reflexivity. Qed.
Example C89_case_dataset :
  snd (fit_transform demo_ops demo_heap 1000 100 no_opts d2 (dafter [CFit no_opts d1])) = Ok (20, 2) /\
  components demo_ops (fst (fit_transform demo_ops demo_heap 1000 100 no_opts d2 (dafter [CFit no_opts d1]))) = Ok 30.
Proof. split; reflexivity. Qed.
Example C89_case_resume_matrix :
  snd (dtransform resume (AMatrix 5) (dafter [CFit keep (AMatrix 5)])) = Raise ValueError.
Proof. reflexivity. Qed.
Example C91_case_keeps : query_keeps_model demo_ops.
Proof. intros t d m q i m' q' H. cbn in H. injection H as <- _. reflexivity. Qed.
Example C92_case : 
  let s := dafter [CFit keep d1] in
  find_query_state demo_ops demo_heap 100 d2 no_opts false s =
    (mkSk (Some 10) (Some (Own 1)) (Some (10, 1)) 2, Ok (Some (20, 1))).
Proof. reflexivity. Qed.

Print Assumptions C45_nothing_works_before_fit.
Print Assumptions C45_model_never_lost.
Print Assumptions C45_resume_continues.
Print Assumptions C45_resume_elsewhere.
Print Assumptions C45_fit_transform_is_two_calls.
Print Assumptions C89_matrices_never_work.
Print Assumptions C89_matrices_error.
Print Assumptions C89_datasets_work.
Print Assumptions C89_matrices_never_resume.
Print Assumptions C90_expected_score_needs_query_state.
Print Assumptions C90_expected_score_error.
Print Assumptions C91_model_kept.
Print Assumptions C91_score_given_assignments_keeps_all.
Print Assumptions C91_score_forgets.
Print Assumptions C92_find_query_state_restores.
Print Assumptions C92_find_query_state_result.
Print Assumptions C45_transform_needs_successful_fit_refuted.
Print Assumptions C89_fit_transform_on_matrices_refuted.
Print Assumptions C90_score_without_assignments_refuted.
Print Assumptions C91_scoring_keeps_resumability_refuted.
