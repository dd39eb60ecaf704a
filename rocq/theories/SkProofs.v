(** * Proofs about the scikit-learn wrapper. *)
From Coq Require Import List ZArith Arith Bool Lia.
From Verif Require Import Base SkModel.
Import ListNotations.

Lemma oid_eqb_eq : forall a b, oid_eqb a b = true <-> a = b.
Proof.
  intros [n|n] [m|m]; cbn; try (split; [discriminate | intros; congruence]);
    rewrite Nat.eqb_eq; split; congruence.
Qed.
Lemma oid_eqb_refl : forall a, oid_eqb a a = true.
Proof. intros a; apply oid_eqb_eq; reflexivity. Qed.

Section P.
  Context {Mdl Qs Dat Y Cm V : Type}.
  Context (ops : module_ops Mdl Qs Dat Y Cm V) (heap : nat -> Dat)
          (split : nat -> Dat -> res (Dat * Dat)) (its qits : Z).
  Notation state := (sk Mdl Qs).
  Notation call := (call Qs Dat Y).
  Notation fit := (fit ops heap its).
  Notation transform := (transform ops heap qits).
  Notation transform_ := (transform_ ops qits).
  Notation fit_transform := (fit_transform ops heap its qits).
  Notation score := (score ops heap split qits).
  Notation find_query_state := (find_query_state ops heap qits).
  Notation perform := (perform ops heap split its qits).
  Notation after := (after ops heap split its qits).

  (** The remembered dataset and the remembered query state come together. *)
  Definition paired (s : state) : Prop := (last_x s = None <-> last_q s = None).

  Ltac crush := repeat match goal with
    | H : (_, _) = (_, _) |- _ => injection H as ? ?; subst
    | H : Ok _ = Raise _ |- _ => discriminate H
    | H : Raise _ = Ok _ |- _ => discriminate H
    | H : Ok _ = Ok _ |- _ => injection H as ?; subst
    end.

  (** What [transform] does, case by case. *)
  Lemma transform_cases : forall o x d s s' r, transform_ o x d s = (s', r) ->
    tick s' = S (tick s) /\
    ((exists e, r = Raise e /\ model s' = model s /\ last_x s' = last_x s /\ last_q s' = last_q s)
     \/ (exists y m m' q q', r = Ok y /\ y = topics_of ops q' /\ model s = Some m /\ model s' = Some m' /\
         make_or_resume ops (tick s) s x d (o_resume o) = Ok q /\
         m_query ops (tick s) d m q (iters_or (o_iters o) qits) = Ok (m', q') /\
         last_x s' = (if o_persist o then Some x else None) /\
         last_q s' = (if o_persist o then Some q' else None))).
  Proof.
    intros o x d s s' r H. unfold SkModel.transform_ in H. cbn [ticked model tick] in H.
    destruct (model s) as [m|] eqn:Em.
    2: { crush. cbn. split; [reflexivity|]. left. eexists; repeat split; auto. }
    replace (make_or_resume ops (tick s) (ticked s) x d (o_resume o))
      with (make_or_resume ops (tick s) s x d (o_resume o)) in H by reflexivity.
    destruct (make_or_resume ops (tick s) s x d (o_resume o)) as [q|e] eqn:Eq.
    2: { crush. cbn. split; [reflexivity|]. left. eexists; repeat split; auto. }
    destruct (m_query ops (tick s) d m q _) as [[m' q']|e] eqn:Et; crush.
    - unfold set_or_clear. destruct (o_persist o); cbn; (split; [reflexivity|]); right;
        exists (topics_of ops q'), m, m', q, q'; repeat split; auto.
    - cbn. split; [reflexivity|]. left. eexists; repeat split; auto.
  Qed.

  Lemma fit_cases : forall o x s s' r, fit o x s = (s', r) ->
    tick s' = S (tick s) /\
    (forall m, model s = Some m -> exists m', model s' = Some m') /\
    ((exists e, r = Raise e /\ last_x s' = last_x s /\ last_q s' = last_q s /\
        (model s' = model s \/ exists m, model s = None /\ new_model ops (tick s) (contents heap x) = Ok m /\ model s' = Some m))
     \/ (exists m m' q q', r = Ok tt /\ model s' = Some m' /\
         (model s = Some m \/ model s = None /\ new_model ops (tick s) (contents heap x) = Ok m) /\
         make_or_resume ops (tick s) (mkSk (Some m) (last_x s) (last_q s) (S (tick s)))
            (ident (tick s) x) (contents heap x) (o_resume o) = Ok q /\
         m_train ops (tick s) (contents heap x) m q (iters_or (o_iters o) its) = Ok (m', q') /\
         last_x s' = (if o_persist o then Some (ident (tick s) x) else None) /\
         last_q s' = (if o_persist o then Some q' else None))).
  Proof.
    intros o x s s' r H. unfold SkModel.fit in H.
    change (model (ticked s)) with (model s) in H.
    change (last_x (ticked s)) with (last_x s) in H.
    change (last_q (ticked s)) with (last_q s) in H.
    change (tick (ticked s)) with (S (tick s)) in H.
    destruct (model s) as [m|] eqn:Em.
    - destruct (make_or_resume _ _ _ _ _ _) as [q|e] eqn:Eq.
      2: { crush. cbn. repeat split; eauto. left. eexists; repeat split; auto. }
      destruct (m_train _ _ _ _ _ _) as [[m' q']|e] eqn:Et; crush.
      + unfold set_or_clear. destruct (o_persist o); cbn; repeat split; eauto; right;
          exists m, m', q, q'; repeat split; auto.
      + cbn. repeat split; eauto. left. eexists; repeat split; auto.
    - destruct (new_model _ _ _) as [m|e] eqn:En.
      2: { crush. cbn. repeat split; [congruence|]. left. eexists; repeat split; auto. }
      destruct (make_or_resume _ _ _ _ _ _) as [q|e] eqn:Eq.
      2: { crush. cbn. repeat split; [congruence|]. left. eexists; repeat split; eauto. }
      destruct (m_train _ _ _ _ _ _) as [[m' q']|e] eqn:Et; crush.
      + unfold set_or_clear. destruct (o_persist o); cbn; (split; [reflexivity|]; split; [congruence|]); right;
          exists m, m', q, q'; repeat split; auto.
      + cbn. repeat split; [congruence|]. left. eexists; repeat split; eauto.
  Qed.

  (** Scoring: either the inference of the missing topics ran, and forgot the
      remembered state, or nothing but the tick changed. *)
  Lemma score_cases : forall x y yq me s s' r, score x y yq me s = (s', r) ->
    tick s' = S (tick s) /\
    (model s' = model s /\ last_x s' = last_x s /\ last_q s' = last_q s
     \/ y = None /\ yq = None /\ last_x s' = None /\ last_q s' = None /\ model s <> None
        /\ (exists d m q m' q', model s = Some m /\ model s' = Some m' /\
              m_query ops (tick s) d m q qits = Ok (m', q'))).
  Proof.
    intros x y yq me s s' r H. unfold SkModel.score in H.
    destruct y as [y|], yq as [yq|]; cbn in H.
    - crush. cbn. auto.
    - crush. cbn. auto.
    - crush. cbn. auto.
    - destruct (negb (is_doc_completion me)).
      + destruct (SkModel.transform_ ops qits no_opts (ident (tick s) x) (contents heap x) s) as [s1 ry] eqn:Et.
        crush. apply transform_cases in Et. destruct Et as [E [(e & _ & E1 & E2 & E3)|
          (y & m & m' & q & q' & _ & _ & E1 & E2 & _ & E3 & E4 & E5)]].
        * split; [exact E|]. left; auto.
        * split; [exact E|]. right. cbn in E4, E5, E3. repeat split; auto; [congruence|].
          do 5 eexists; eauto.
      + destruct (split (tick s) (contents heap x)) as [[d1 d2]|e] eqn:Es.
        2:{ crush. cbn. auto. }
        destruct (SkModel.transform_ ops qits no_opts (Wrapped (tick s)) d1 s) as [s1 ry] eqn:Et.
        crush. apply transform_cases in Et. destruct Et as [E [(e & _ & E1 & E2 & E3)|
          (y & m & m' & q & q' & _ & _ & E1 & E2 & _ & E3 & E4 & E5)]].
        * split; [exact E|]. left; auto.
        * split; [exact E|]. right. cbn in E4, E5, E3. repeat split; auto; [congruence|].
          do 5 eexists; eauto.
  Qed.

  Lemma find_cases : forall x o p s s' r, find_query_state x o p s = (s', r) ->
    exists s1 ry, transform (mkOpts (o_iters o) (o_resume o) true) x s = (s1, ry) /\
    model s' = model s1 /\ tick s' = tick s1 /\
    ((exists e, ry = Raise e /\ r = Raise e /\ s' = s1) \/
     (exists y, ry = Ok y /\ r = Ok (last_q s1) /\
        (p = true -> s' = s1) /\
        (p = false -> last_x s' = (if last_q s then last_x s else None) /\ last_q s' = last_q s))).
  Proof.
    intros x o p s s' r H. unfold SkModel.find_query_state in H.
    destruct (SkModel.transform _ _ _ _ x s) as [s1 [y|e]] eqn:Et; exists s1; eexists; (split; [reflexivity|]).
    - crush. destruct p; cbn.
      + repeat split. right. eexists; repeat split; auto. discriminate. discriminate.
      + repeat split. right. eexists; repeat split; auto; try discriminate; destruct (last_q s); reflexivity.
    - crush. repeat split. left. eauto.
  Qed.

  Lemma paired_step : forall c s, paired s -> paired (fst (perform c s)).
  Proof.
    assert (HT : forall o x d s s' r, transform_ o x d s = (s', r) -> paired s -> paired s').
    { intros o x d s s' r E P. apply transform_cases in E. unfold paired in *.
      destruct E as [_ [(e & _ & _ & -> & ->)|(y & m & m' & q & q' & _ & _ & _ & _ & _ & _ & -> & ->)]]; auto.
      destruct (o_persist o); split; congruence. }
    assert (HF : forall o x s s' r, fit o x s = (s', r) -> paired s -> paired s').
    { intros o x s s' r E P. apply fit_cases in E. unfold paired in *.
      destruct E as [_ [_ [(e & _ & -> & -> & _)|(m & m' & q & q' & _ & _ & _ & _ & _ & -> & ->)]]]; auto.
      destruct (o_persist o); split; congruence. }
    intros c s P. unfold SkModel.perform. destruct c as [o x|o x|o x|x y yq me|x o p].
    - destruct (SkModel.fit _ _ _ o x s) as [s' r] eqn:E. eapply HF; eauto.
    - destruct (SkModel.transform _ _ _ o x s) as [s' r] eqn:E. eapply HT; eauto.
    - destruct (SkModel.fit_transform _ _ _ _ o x s) as [s' r] eqn:E. cbn [fst].
      unfold SkModel.fit_transform in E.
      destruct (SkModel.fit ops heap its _ x s) as [s1 [[]|e]] eqn:E1.
      + eapply HT; [exact E|]. eapply HF; eauto.
      + crush. eapply HF; eauto.
    - destruct (SkModel.score _ _ _ _ x y yq me s) as [s' r] eqn:E. cbn [fst].
      apply score_cases in E. unfold paired in *.
      destruct E as [_ [(_ & -> & ->)|(_ & _ & -> & -> & _)]]; auto. tauto.
    - destruct (SkModel.find_query_state _ _ _ x o p s) as [s' r] eqn:E. cbn [fst].
      apply find_cases in E. destruct E as (s1 & ry & Et & _ & _ & E).
      assert (P1 : paired s1) by (eapply HT; eauto).
      destruct E as [(e & _ & _ & ->)|(y & _ & _ & E1 & E2)]; auto.
      destruct p.
      + rewrite (E1 eq_refl); auto.
      + destruct (E2 eq_refl) as [A B]. unfold paired in *. rewrite A, B.
        destruct (last_q s); [exact P|tauto].
  Qed.

  Lemma after_snoc : forall h c s, after (h ++ [c]) s = fst (perform c (after h s)).
  Proof. intros; unfold SkModel.after; rewrite fold_left_app; reflexivity. Qed.

  Lemma paired_after : forall h s, paired s -> paired (after h s).
  Proof.
    intros h s P. induction h as [|c h IH] using rev_ind; [exact P|].
    rewrite after_snoc. apply paired_step, IH.
  Qed.

  Lemma tick_mono : forall c s, tick s < tick (fst (perform c s)).
  Proof.
    intros c s. unfold SkModel.perform. destruct c as [o x|o x|o x|x y yq me|x o p].
    - destruct (SkModel.fit _ _ _ o x s) as [s' r] eqn:E. apply fit_cases in E. cbn. lia.
    - destruct (SkModel.transform _ _ _ o x s) as [s' r] eqn:E. apply transform_cases in E. cbn. lia.
    - destruct (SkModel.fit_transform _ _ _ _ o x s) as [s' r] eqn:E. cbn [fst].
      unfold SkModel.fit_transform in E.
      destruct (SkModel.fit ops heap its _ x s) as [s1 [[]|e]] eqn:E1; apply fit_cases in E1.
      + apply transform_cases in E. lia.
      + crush. lia.
    - destruct (SkModel.score _ _ _ _ x y yq me s) as [s' r] eqn:E. apply score_cases in E. cbn. lia.
    - destruct (SkModel.find_query_state _ _ _ x o p s) as [s' r] eqn:E. apply find_cases in E.
      destruct E as (s1 & ry & Et & _ & Ht & _). apply transform_cases in Et. cbn. lia.
  Qed.
End P.
