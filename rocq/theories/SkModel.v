(** * Model of the scikit-learn wrapper [TopicModel], model/sklearn/lda_cvb.py.

    The wrapped module (newModelAtRandom, newQueryState, train, query,
    topicDists, wordDists and the likelihoods) is an arbitrary collection of
    functions that may raise; [t] is the number of the call, so that random
    results may differ from call to call.  The wrapper keeps references: two
    datasets are the same for it only when they are the same object, so every
    dataset has an identity.  [Own n] is the caller's [n]-th DataSet; a matrix
    passed instead of a DataSet is wrapped in a new DataSet at each call. *)
From Coq Require Import List ZArith Arith Bool.
From Verif Require Import Base.
Import ListNotations.

Inductive oid := Own (n : nat) | Wrapped (t : nat).
Definition oid_eqb (a b : oid) : bool :=
  match a, b with
  | Own n, Own m => n =? m
  | Wrapped n, Wrapped m => n =? m
  | _, _ => false
  end.

(** ScoreMethod, lines 54-87. *)
Inductive method := LLPoint | LLExpected | PerpPoint | PerpExpected | DocLLPoint | DocPerpPoint.
Definition is_point_estimate (m : method) : bool :=
  match m with LLPoint | PerpPoint | DocLLPoint | DocPerpPoint => true | _ => false end.
Definition is_perplexity (m : method) : bool :=
  match m with PerpExpected | PerpPoint | DocPerpPoint => true | _ => false end.
Definition is_doc_completion (m : method) : bool :=
  match m with DocLLPoint | DocPerpPoint => true | _ => false end.

Section Wrapper.
  Context {Mdl Qs Dat Y Cm V : Type}.

  Record module_ops := mkOps {
    new_model : nat -> Dat -> res Mdl;
    new_query : nat -> Dat -> Mdl -> res Qs;
    m_train   : nat -> Dat -> Mdl -> Qs -> Z -> res (Mdl * Qs);
    m_query   : nat -> Dat -> Mdl -> Qs -> Z -> res (Mdl * Qs);
    topics_of : Qs -> Y;
    words_of  : Mdl -> Cm;
    amendable : bool;                                (* lines 463-472 *)
    ll_point    : Dat -> Y -> Cm -> res V;
    ll_expected : Dat -> Mdl -> Qs -> res V;
    perplexity  : V -> Dat -> res V
  }.

  Inductive arg := ADataSet (n : nat) | AMatrix (m : Dat).
  (** Keyword arguments: iterations, resume, persist_query_state. *)
  Record opts := mkOpts { o_iters : option Z; o_resume : bool; o_persist : bool }.
  Definition no_opts : opts := mkOpts None false false.

  (** _model_state, _last_X, _last_query_state and the number of the call. *)
  Record sk := mkSk { model : option Mdl; last_x : option oid; last_q : option Qs; tick : nat }.
  Definition fresh_sk : sk := mkSk None None None 0.

  Context (ops : module_ops) (heap : nat -> Dat) (split : nat -> Dat -> res (Dat * Dat))
          (iterations query_iterations : Z).

  (** Lines 270-271, 364-365, 439-440. *)
  Definition ident (t : nat) (x : arg) : oid := match x with ADataSet n => Own n | AMatrix _ => Wrapped t end.
  Definition contents (x : arg) : Dat := match x with ADataSet n => heap n | AMatrix m => m end.

  (** [kwargs.get('iterations') or default]. *)
  Definition iters_or (o : option Z) (default : Z) : Z :=
    match o with Some i => if (i =? 0)%Z then default else i | None => default end.

  (** Lines 387-398 [make_or_resume_query_state]. *)
  Definition make_or_resume (t : nat) (s : sk) (x : oid) (d : Dat) (resume : bool) : res Qs :=
    if resume then
      match last_x s with
      | Some y => if oid_eqb y x
                  then match last_q s with Some q => Ok q | None => Raise AttributeError end
                  else Raise ValueError
      | None => Raise ValueError
      end
    else match model s with Some m => new_query ops t d m | None => Raise AttributeError end.

  (** Lines 296-304 [_set_or_clear_last_query_state]. *)
  Definition set_or_clear (s : sk) (m : Mdl) (x : oid) (q : Qs) (persist : bool) : sk :=
    if persist then mkSk (Some m) (Some x) (Some q) (tick s) else mkSk (Some m) None None (tick s).

  Definition ticked (s : sk) : sk := mkSk (model s) (last_x s) (last_q s) (S (tick s)).

  (** Lines 252-294 [fit].  A failure leaves what was assigned before it.  All
      wrapped train functions return three metric sequences, which line 292
      needs; the training plan (306-337) only carries settings. *)
  Definition fit (o : opts) (x : arg) (s : sk) : sk * res unit :=
    let t := tick s in
    let d := contents x in
    let s0 := ticked s in
    match (match model s0 with Some m => Ok m | None => new_model ops t d end) with
    | Raise e => (s0, Raise e)
    | Ok m =>
        let s1 := mkSk (Some m) (last_x s0) (last_q s0) (tick s0) in
        match make_or_resume t s1 (ident t x) d (o_resume o) with
        | Raise e => (s1, Raise e)
        | Ok q =>
            match m_train ops t d m q (iters_or (o_iters o) iterations) with
            | Raise e => (s1, Raise e)
            | Ok (m', q') => (set_or_clear s1 m' (ident t x) q' (o_persist o), Ok tt)
            end
        end
    end.

  (** Lines 339-385 [transform], for a dataset with identity [x]. *)
  Definition transform_ (o : opts) (x : oid) (d : Dat) (s : sk) : sk * res Y :=
    let t := tick s in
    let s0 := ticked s in
    match model s0 with
    | None => (s0, Raise ValueError)
    | Some m =>
        match make_or_resume t s0 x d (o_resume o) with
        | Raise e => (s0, Raise e)
        | Ok q =>
            match m_query ops t d m q (iters_or (o_iters o) query_iterations) with
            | Raise e => (s0, Raise e)
            | Ok (m', q') => (set_or_clear s0 m' x q' (o_persist o), Ok (topics_of ops q'))
            end
        end
    end.
  Definition transform (o : opts) (x : arg) (s : sk) : sk * res Y :=
    transform_ o (ident (tick s) x) (contents x) s.

  (** Lines 241-250 [fit_transform]: the keyword arguments go to both, except
      that fit persists and transform resumes. *)
  Definition fit_transform (o : opts) (x : arg) (s : sk) : sk * res Y :=
    match fit (mkOpts (o_iters o) (o_resume o) true) x s with
    | (s1, Raise e) => (s1, Raise e)
    | (s1, Ok _) => transform (mkOpts (o_iters o) true (o_persist o)) x s1
    end.

  (** Lines 400-403 [components_]. *)
  Definition components (s : sk) : res Cm :=
    match model s with Some m => Ok (words_of ops m) | None => Raise AttributeError end.

  (** Lines 409-491 [score].  [query_state] is a local name that only two of
      the branches assign.  [split] is DataSet.doc_completion_split. *)
  Definition score (x : arg) (y : option Y) (yq : option Qs) (m : method) (s : sk) : sk * res V :=
    let t := tick s in
    let d := contents x in
    let '(s1, r) :=
      match y, yq with
      | Some _, Some _ => (ticked s, Raise ValueError)
      | None, None =>
          if negb (is_doc_completion m)
          then let '(s1, ry) := transform_ no_opts (ident t x) d s in
               (s1, do y <- ry; Ok (d, y, None))
          else match split t d with
               | Raise e => (ticked s, Raise e)
               | Ok (d1, d2) => let '(s1, ry) := transform_ no_opts (Wrapped t) d1 s in
                                (s1, do y <- ry; Ok (d2, y, None))
               end
      | Some y, None =>
          (ticked s,
           if negb (is_point_estimate m) then Raise ValueError else
           do q <- make_or_resume t s (ident t x) d false;
           if amendable ops then Ok (d, y, Some q) else Raise ValueError)
      | None, Some q => (ticked s, Ok (d, topics_of ops q, Some q))
      end in
    (s1,
     do r <- r;
     let '(d, y, query_state) := r in
     do v <- (if is_point_estimate m
              then do c <- components s1; ll_point ops d y c
              else match query_state, model s1 with
                   | None, _ => Raise UnboundLocalError
                   | Some q, Some m => ll_expected ops d m q
                   | Some q, None => Raise AttributeError
                   end);
     if is_perplexity m then perplexity ops v d else Ok v).

  (** Lines 569-585 [find_query_state_via_transform]. *)
  Definition find_query_state (x : arg) (o : opts) (persist : bool) (s : sk) : sk * res (option Qs) :=
    let backup := if negb persist && (if last_q s then true else false) then (last_x s, last_q s) else (None, None) in
    match transform (mkOpts (o_iters o) (o_resume o) true) x s with
    | (s1, Raise e) => (s1, Raise e)
    | (s1, Ok _) =>
        ((if persist then s1 else mkSk (model s1) (fst backup) (snd backup) (tick s1)), Ok (last_q s1))
    end.

  (** ** Histories of calls *)
  Inductive call :=
  | CFit (o : opts) (x : arg)
  | CTransform (o : opts) (x : arg)
  | CFitTransform (o : opts) (x : arg)
  | CScore (x : arg) (y : option Y) (yq : option Qs) (m : method)
  | CFind (x : arg) (o : opts) (persist : bool).
  Definition succeeds {A} (r : res A) : bool := match r with Ok _ => true | Raise _ => false end.
  (** The state after a call, and whether it succeeded. *)
  Definition perform (c : call) (s : sk) : sk * bool :=
    match c with
    | CFit o x => let (s', r) := fit o x s in (s', succeeds r)
    | CTransform o x => let (s', r) := transform o x s in (s', succeeds r)
    | CFitTransform o x => let (s', r) := fit_transform o x s in (s', succeeds r)
    | CScore x y yq m => let (s', r) := score x y yq m s in (s', succeeds r)
    | CFind x o p => let (s', r) := find_query_state x o p s in (s', succeeds r)
    end.
  Definition after (h : list call) (s : sk) : sk := fold_left (fun s c => fst (perform c s)) h s.
End Wrapper.
Arguments module_ops : clear implicits.
Arguments call : clear implicits.
Arguments arg : clear implicits.
Arguments sk : clear implicits.
