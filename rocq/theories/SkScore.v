(** * What the scikit-learn wrapper's score computes, and how many iterations its
    calls run (C109, C110). *)
From Coq Require Import List ZArith Arith Bool Lia.
From Verif Require Import Base SkModel SkProofs SkProps.
Import ListNotations.

(** The documented meaning of the six methods: whether the likelihood is that of
    a point estimate, whether it is turned into a perplexity, and whether it is
    of the held out half of every document. *)
Inductive estimate := AtPoint | Expected.
Inductive form := LogLike | Perplexity.
Inductive on := WholeDocs | HeldOutHalf.
Definition described (m : method) : estimate * form * on :=
  match m with
  | LLPoint => (AtPoint, LogLike, WholeDocs)
  | LLExpected => (Expected, LogLike, WholeDocs)
  | PerpPoint => (AtPoint, Perplexity, WholeDocs)
  | PerpExpected => (Expected, Perplexity, WholeDocs)
  | DocLLPoint => (AtPoint, LogLike, HeldOutHalf)
  | DocPerpPoint => (AtPoint, Perplexity, HeldOutHalf)
  end.

Section P.
  Context {Mdl Qs Dat Y Cm V : Type}.
  Context (ops : module_ops Mdl Qs Dat Y Cm V) (heap : nat -> Dat)
          (split : nat -> Dat -> res (Dat * Dat)) (its qits : Z).
  Notation fit := (fit ops heap its).
  Notation transform := (transform ops heap qits).
  Notation score := (score ops heap split qits).

  Definition in_form (f : form) (d : Dat) (r : res V) : res V :=
    match f with LogLike => r | Perplexity => match r with Ok v => perplexity ops v d | Raise e => Raise e end end.

  (** Topic assignments given: the likelihood of the whole documents under them. *)
  Theorem C109_score_of_given_topics : forall x y m s f o md q, model s = Some md ->
    described m = (AtPoint, f, o) -> new_query ops (tick s) (contents heap x) md = Ok q -> amendable ops = true ->
    snd (score x (Some y) None m s) = in_form f (contents heap x) (ll_point ops (contents heap x) y (words_of ops md)).
  Proof.
    intros x y m s f o md q M D Q A. unfold SkModel.score, make_or_resume. rewrite M, Q, A.
    destruct m; cbn in D; try discriminate D; injection D as <- <-; cbn [is_point_estimate negb bind snd is_perplexity];
      unfold components; cbn [ticked model]; rewrite M; cbn [bind]; unfold in_form;
      destruct (ll_point _ _ _ _); reflexivity.
  Qed.

  (** Given topics are not enough for the expected likelihood, nor for modules
      whose query state cannot be given topics. *)
  Theorem C109_given_topics_rejected : forall x y m s,
    fst (fst (described m)) = Expected \/
    (amendable ops = false /\ exists md q, model s = Some md /\ new_query ops (tick s) (contents heap x) md = Ok q) ->
    snd (score x (Some y) None m s) = Raise ValueError.
  Proof.
    intros x y m s H. unfold SkModel.score, make_or_resume.
    destruct H as [H|(A & md & q & M & Q)].
    - destruct m; try discriminate H; reflexivity.
    - rewrite M, Q, A. destruct m; reflexivity.
  Qed.

  (** A query state given: the point likelihood of its topics, or the expected
      likelihood of the state. *)
  Theorem C109_score_of_given_state : forall x q m s md e f o, model s = Some md -> described m = (e, f, o) ->
    snd (score x None (Some q) m s) =
    in_form f (contents heap x)
      (match e with
       | AtPoint => ll_point ops (contents heap x) (topics_of ops q) (words_of ops md)
       | Expected => ll_expected ops (contents heap x) md q
       end).
  Proof.
    intros x q m s md e f o M D. unfold SkModel.score.
    destruct m; cbn in D; injection D as <- <- <-; cbn [bind snd is_point_estimate is_perplexity];
      unfold components; cbn [ticked model]; rewrite M; cbn [bind]; unfold in_form;
      first [destruct (ll_point _ _ _ _); reflexivity|destruct (ll_expected _ _ _ _); reflexivity].
  Qed.

  Theorem C109_both_given_rejected : forall x y q m s, snd (score x (Some y) (Some q) m s) = Raise ValueError.
  Proof. reflexivity. Qed.

  (** Neither given: the likelihood of the topics that transform infers. *)
  Theorem C109_score_infers_topics : forall x m s f y md', described m = (AtPoint, f, WholeDocs) ->
    transform no_opts x s = (md', Ok y) ->
    snd (score x None None m s) =
    in_form f (contents heap x) (do c <- components ops md'; ll_point ops (contents heap x) y c).
  Proof.
    intros x m s f y md' D T. unfold SkModel.score. unfold SkModel.transform in T.
    destruct m; cbn in D; try discriminate D; injection D as <-; cbn [is_doc_completion negb];
      rewrite T; cbn [bind snd is_point_estimate is_perplexity]; unfold in_form;
      destruct (components ops md'); try reflexivity; cbn [bind]; destruct (ll_point _ _ _ _); reflexivity.
  Qed.

  (** Document completion: the topics are inferred from the first half of every
      document and scored on the second. *)
  Theorem C109_document_completion : forall x m s f d1 d2 y s', described m = (AtPoint, f, HeldOutHalf) ->
    split (tick s) (contents heap x) = Ok (d1, d2) ->
    transform no_opts (AMatrix d1) s = (s', Ok y) ->
    snd (score x None None m s) = in_form f d2 (do c <- components ops s'; ll_point ops d2 y c).
  Proof.
    intros x m s f d1 d2 y s' D S T. unfold SkModel.score. unfold SkModel.transform in T. cbn [ident contents] in T.
    destruct m; cbn in D; try discriminate D; injection D as <-; cbn [is_doc_completion negb];
      rewrite S, T; cbn [bind snd is_point_estimate is_perplexity]; unfold in_form;
      destruct (components ops s'); try reflexivity; cbn [bind]; destruct (ll_point _ _ _ _); reflexivity.
  Qed.

  (** A failure to infer or to split is passed on. *)
  Theorem C109_failures_passed_on : forall x m s e,
    (snd (described m) = WholeDocs -> snd (transform no_opts x s) = Raise e -> snd (score x None None m s) = Raise e) /\
    (snd (described m) = HeldOutHalf -> split (tick s) (contents heap x) = Raise e -> snd (score x None None m s) = Raise e).
  Proof.
    intros x m s e. split; intros D T; unfold SkModel.score.
    - unfold SkModel.transform in T. destruct m; try discriminate D; cbn [is_doc_completion negb];
        destruct (transform_ ops qits no_opts (ident (tick s) x) (contents heap x) s) as [s1 [y|e']]; cbn [snd] in T; try discriminate T;
        injection T as ->; reflexivity.
    - destruct m; try discriminate D; cbn [is_doc_completion negb]; rewrite T; reflexivity.
  Qed.

  (** ** C110 *)
  Definition asked (o : option Z) (default n : Z) : Prop :=
    (forall k, o = Some k -> k <> 0%Z -> n = k) /\ (o = None \/ o = Some 0%Z -> n = default).

  Lemma iters_asked o default : asked o default (iters_or o default).
  Proof.
    unfold asked, iters_or. destruct o as [k|]; split.
    - intros k' [= <-] H. destruct (Z.eqb_spec k 0); [contradiction|reflexivity].
    - intros [H|[= ->]]; [discriminate|reflexivity].
    - intros k' H. discriminate H.
    - reflexivity.
  Qed.

  (** A successful fit ran one training with the number asked for, or the
      wrapper's own number when none, or zero, was asked for. *)
  Theorem C110_fit_iterations : forall o x s, snd (fit o x s) = Ok tt ->
    exists n m q m' q', asked (o_iters o) its n /\
      m_train ops (tick s) (contents heap x) m q n = Ok (m', q') /\ model (fst (fit o x s)) = Some m'.
  Proof.
    intros o x s H. destruct (SkModel.fit ops heap its o x s) as [s' r] eqn:E. cbn [fst snd] in *. subst r.
    apply fit_cases in E. destruct E as (_ & _ & [(e & D & _)|(m & m' & q & q' & _ & M & _ & _ & T & _)]); [discriminate D|].
    exists (iters_or (o_iters o) its), m, q, m', q'. split; [apply iters_asked|]. split; assumption.
  Qed.

  Theorem C110_transform_iterations : forall o x s y, snd (transform o x s) = Ok y ->
    exists n m q m' q', asked (o_iters o) qits n /\ model s = Some m /\
      m_query ops (tick s) (contents heap x) m q n = Ok (m', q') /\ y = topics_of ops q'.
  Proof.
    intros o x s y H. destruct (SkModel.transform ops heap qits o x s) as [s' r] eqn:E. cbn [snd] in *. subst r.
    apply transform_cases in E.
    destruct E as (_ & [(e & D & _)|(y' & m & m' & q & q' & Y1 & Y2 & M & _ & _ & T & _)]); [discriminate D|].
    injection Y1 as ->. exists (iters_or (o_iters o) qits), m, q, m', q'. split; [apply iters_asked|]. repeat split; assumption.
  Qed.
End P.

(** ** Examples *)
(** A module whose model is the number of iterations trained so far. *)
Definition counting_ops : module_ops Z Z nat Z Z Z :=
  mkOps (fun t d => Ok 0%Z) (fun t d m => Ok 0%Z)
    (fun t d m q i => Ok (m + i, q)%Z) (fun t d m q i => Ok (m, q + i)%Z)
    (fun q => q) (fun m => m) true
    (fun d y c => Ok (Z.of_nat d + 1000 * y + 100000 * c)%Z) (fun d m q => Ok (m + q)%Z) (fun v d => Ok (v * Z.of_nat d)%Z).
Definition counting_split (t d : nat) : res (nat * nat) := Ok (d - d / 2, d / 2).
Example C109_case_completion :
  let s := fst (fit counting_ops (fun n => n) 7 (mkOpts (Some 3%Z) false false) (ADataSet 9) fresh_sk) in
  snd (score counting_ops (fun n => n) counting_split 5 (ADataSet 9) None None DocPerpPoint s) = Ok (4 * 305004)%Z.
Proof. reflexivity. Qed.
Example C110_case :
  model (fst (fit counting_ops (fun n => n) 7 (mkOpts (Some 3%Z) false false) (ADataSet 9) fresh_sk)) = Some 3%Z /\
  model (fst (fit counting_ops (fun n => n) 7 (mkOpts (Some 0%Z) false false) (ADataSet 9) fresh_sk)) = Some 7%Z.
Proof. split; reflexivity. Qed.

Print Assumptions C109_score_of_given_topics.
Print Assumptions C109_given_topics_rejected.
Print Assumptions C109_score_of_given_state.
Print Assumptions C109_both_given_rejected.
Print Assumptions C109_score_infers_topics.
Print Assumptions C109_document_completion.
Print Assumptions C109_failures_passed_on.
Print Assumptions C110_fit_iterations.
Print Assumptions C110_transform_iterations.
