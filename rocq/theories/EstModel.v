(** * Model of the settings of the scikit-learn wrapper [TopicModel],
    model/sklearn/lda_cvb.py, and of what the eight wrapped modules of /repo
    (model/lda_cvb0.py, lda_cvb.py, lda_vb.py, lda_vb_python.py, lda_svb.py,
    lda_gibbs.py, mom_em.py, mom_gibbs.py) do with them.

    The fitting itself is the subject of SkModel and of the models of the modules. *)
From Coq Require Import List ZArith QArith Arith Bool String.
From Verif Require Import Base SkModel.
Import ListNotations.
Local Open Scope nat_scope.

(** TopicModelType, lines 90-98. *)
Inductive kind := CVB0 | CVB | VB | VBPython | SVB | Gibbs | MomVB | MomGibbs.
Definition all_kinds : list kind := [CVB0; CVB; VB; VBPython; SVB; Gibbs; MomVB; MomGibbs].
Definition kind_name (k : kind) : string :=
  match k with
  | CVB0 => "LDA_CVB0" | CVB => "LDA_CVB" | VB => "LDA_VB" | VBPython => "LDA_VB_PYTHON_IMPL"
  | SVB => "LDA_SVB" | Gibbs => "LDA_GIBBS" | MomVB => "MOM_VB" | MomGibbs => "MOM_GIBBS"
  end.
(** A value of the argument or attribute [kind]: a string or a member of the enumeration. *)
Inductive kindv := KName (s : string) | KType (k : kind).
(** [TopicModelType[v]]: the lookup is by name. *)
Definition lookup (v : kindv) : res kind :=
  match v with
  | KName s => match find (fun k => String.eqb (kind_name k) s) all_kinds with Some k => Ok k | None => Raise KeyError end
  | KType _ => Raise KeyError
  end.

(** ** Settings

    The arguments of the constructor (lines 163-182) and the attributes of the same
    names.  The settings that are only stored and passed on to training plans, with
    those used below by name, are in [others]. *)
Record others := mkOthers {
  log_frequency : Z; use_approximations : bool; debug : bool;
  batchSize : Z; rate_delay : Q; forgetting_rate : Q; rate_a : Q; rate_b : Q; rate_algor : nat;
  burn_in : Z; thin : Z; n_components : Z; scoring : nat }.
Record settings := mkSettings {
  s_kind : kindv;
  s_iterations : Z;
  s_query_iterations : option Z;     (* None is Python's None *)
  s_perp_tolerance : option Q;
  s_others : others;
  s_seed : Z }.

(** Python's [x or d] for numbers: None and zero are false. *)
Definition or_z (x : option Z) (d : Z) : Z := match x with Some v => if (v =? 0)%Z then d else v | None => d end.
Definition or_q (x : option Q) (d : Q) : Q := match x with Some v => if Qeq_bool v 0%Q then d else v | None => d end.

(** [TopicModel(...)], lines 162-219, as far as the attributes are concerned.  The kind
    has no default.  The last assignment, of the seed, looks the kind up (line 225). *)
Definition construct (kind_arg : option kindv) (a : settings) : res settings :=
  match kind_arg with
  | None => Raise TypeError
  | Some v =>
      let k := match v with KType k => KName (kind_name k) | KName s => KName s end in
      do _ <- lookup k;
      Ok (mkSettings k (s_iterations a)
            (Some (or_z (s_query_iterations a) (s_iterations a / 10)%Z))
            (Some (or_q (s_perp_tolerance a) (1 # 10)))
            (s_others a) (s_seed a))
  end.
Definition build (a : settings) : res settings := construct (Some (s_kind a)) a.

(** [set_params] of sklearn's BaseEstimator assigns attributes by name.  Assigning the
    seed looks the kind up (lines 222-227). *)
Inductive assign :=
| SetKind (v : kindv) | SetIterations (n : Z) | SetQueryIterations (n : option Z)
| SetPerpTolerance (q : option Q) | SetOthers (o : others) | SetSeed (z : Z).
Definition set_param (s : settings) (a : assign) : res settings :=
  match a with
  | SetKind v => Ok (mkSettings v (s_iterations s) (s_query_iterations s) (s_perp_tolerance s) (s_others s) (s_seed s))
  | SetIterations n => Ok (mkSettings (s_kind s) n (s_query_iterations s) (s_perp_tolerance s) (s_others s) (s_seed s))
  | SetQueryIterations n => Ok (mkSettings (s_kind s) (s_iterations s) n (s_perp_tolerance s) (s_others s) (s_seed s))
  | SetPerpTolerance q => Ok (mkSettings (s_kind s) (s_iterations s) (s_query_iterations s) q (s_others s) (s_seed s))
  | SetOthers o => Ok (mkSettings (s_kind s) (s_iterations s) (s_query_iterations s) (s_perp_tolerance s) o (s_seed s))
  | SetSeed z => do _ <- lookup (s_kind s);
                 Ok (mkSettings (s_kind s) (s_iterations s) (s_query_iterations s) (s_perp_tolerance s) (s_others s) z)
  end.
Fixpoint set_params (s : settings) (l : list assign) : res settings :=
  match l with [] => Ok s | a :: r => do s <- set_param s a; set_params s r end.
(** [get_params] returns the attributes; all of them can be passed to [set_params]. *)
Definition get_params (s : settings) : list assign :=
  [SetKind (s_kind s); SetIterations (s_iterations s); SetQueryIterations (s_query_iterations s);
   SetPerpTolerance (s_perp_tolerance s); SetOthers (s_others s); SetSeed (s_seed s)].

(** sklearn.base.clone: an object of the same class from [get_params], all of whose
    parameters must be the ones passed in; else it raises a RuntimeError. *)
Definition kindv_eqb (a b : kindv) : bool :=
  match a, b with
  | KName s, KName t => String.eqb s t
  | KType j, KType k => String.eqb (kind_name j) (kind_name k)
  | _, _ => false
  end.
Definition zopt_eqb (a b : option Z) : bool :=
  match a, b with Some x, Some y => (x =? y)%Z | None, None => true | _, _ => false end.
Definition qopt_eqb (a b : option Q) : bool :=
  match a, b with Some x, Some y => (Qnum x =? Qnum y)%Z && (Qden x =? Qden y)%positive | None, None => true | _, _ => false end.
Definition clone (s : settings) : res settings :=
  do c <- build s;
  if kindv_eqb (s_kind c) (s_kind s) && zopt_eqb (s_query_iterations c) (s_query_iterations s)
     && qopt_eqb (s_perp_tolerance c) (s_perp_tolerance s)
  then Ok c else Raise OtherError.

(** [copy], lines 228-237: [TopicModel()], then the result's own parameters.
    [copy_cvb0] is newModelFromExisting of lda_cvb0, used for every kind. *)
Section Copy.
  Context {M Qs : Type} (copy_cvb0 : M -> res M).
  Record estimator := mkEst { e_settings : settings; e_model : M; e_query : Qs }.
  Definition copy_est (defaults : settings) (e : estimator) : res estimator :=
    do r <- construct None defaults;
    do r <- set_params r (get_params r);
    do m <- copy_cvb0 (e_model e);
    Ok (mkEst r m (e_query e)).
End Copy.

(** ** Random numbers

    numpy's global generator and the C library's.  Line 223-226: assigning the seed
    seeds numpy's; for LDA_GIBBS seed_rng (lda_gibbs.py lines 178-180) then seeds both. *)
Definition coffee : Z := 12648430.   (* 0xC0FFEE *)
Section Seeds.
  Context {G C D M : Type} (seed_np : Z -> G) (seed_c : Z -> C).
  (** What a fit does: LDA_GIBBS samples with the C library's generator
      (lda_gibbs_fast.pyx lines 223, 247) after starting from numpy's (lda_gibbs.py
      line 146).  The others draw from numpy's only: where they shuffle with the C
      library's they first seed it with a constant (lda_cvb0_fast.pyx lines 86, 156,
      226); [after] is what that leaves. *)
  Context (run : kind -> settings -> option M -> D -> G -> res M * G)
          (after : kind -> D -> C -> C)
          (run_gibbs : settings -> option M -> D -> G -> C -> res M * G * C).
  (** No training function reads the seed. *)
  Definition unseeded (s : settings) : settings :=
    mkSettings (s_kind s) (s_iterations s) (s_query_iterations s) (s_perp_tolerance s) (s_others s) 0.

  Record world := mkWorld { np : G; libc : C; live : nat -> option (settings * option M) }.
  Definition seeded (s : settings) (w : world) : res world :=
    do k <- lookup (s_kind s);
    match k with
    | Gibbs => Ok (mkWorld (seed_np coffee) (seed_c coffee) (live w))
    | _ => Ok (mkWorld (seed_np (s_seed s)) (libc w) (live w))
    end.
  Definition put (i : nat) (e : settings * option M) (w : world) : world :=
    mkWorld (np w) (libc w) (fun j => if Nat.eqb j i then Some e else live w j).

  Inductive event :=
  | Build (i : nat) (a : settings)          (* i = TopicModel(...) *)
  | Reseed (i : nat) (z : Z)                (* i.seed = z *)
  | Fit (i : nat) (d : D)                   (* i.fit(d) *)
  | Elsewhere (f : G -> G) (g : C -> C).    (* any other use of the generators *)
  Definition happens (e : event) (w : world) : res world :=
    match e with
    | Build i a => do s <- build a; do w <- seeded s w; Ok (put i (s, None) w)
    | Reseed i z =>
        match live w i with
        | None => Raise NameError
        | Some (s, m) => let s := mkSettings (s_kind s) (s_iterations s) (s_query_iterations s) (s_perp_tolerance s) (s_others s) z in
                         do w <- seeded s w; Ok (put i (s, m) w)
        end
    | Fit i d =>
        match live w i with
        | None => Raise NameError
        | Some (s, m) =>
            do k <- lookup (s_kind s);
            match k with
            | Gibbs => let '(r, g, c) := run_gibbs (unseeded s) m d (np w) (libc w) in
                       do m' <- r; Ok (put i (s, Some m') (mkWorld g c (live w)))
            | k => let '(r, g) := run k (unseeded s) m d (np w) in
                   do m' <- r; Ok (put i (s, Some m') (mkWorld g (after k d (libc w)) (live w)))
            end
        end
    | Elsewhere f g => Ok (mkWorld (f (np w)) (g (libc w)) (live w))
    end.
  Fixpoint history (l : list event) (w : world) : res world :=
    match l with [] => Ok w | e :: l => do w <- happens e w; history l w end.
  (** The model that estimator [i] ends up with. *)
  Definition model_of (i : nat) (r : res world) : res (option M) :=
    do w <- r; match live w i with Some (_, m) => Ok m | None => Raise NameError end.
End Seeds.

(** ** Training plans

    What [_new_train_plan] (lines 306-337) passes to newTrainPlan of the module; None
    where the module's own default applies.  [kw_burn] and [kw_thin] are the keyword
    arguments of fit or transform. *)
Record plan_args := mkPlan {
  p_iterations : Z; p_log_frequency : Z; p_fast : bool; p_debug : bool; p_epsilon : option Q;
  p_batch : option (Z * Q * Q * Q * Q * nat); p_burn : option (Z * Z) }.
Definition plan_of (k : kind) (s : settings) (iters : Z) (kw_burn kw_thin : option Z) : plan_args :=
  let o := s_others s in
  match k with
  | VBPython => mkPlan iters (log_frequency o) (use_approximations o) (debug o) (s_perp_tolerance s)
                  (Some (batchSize o, rate_delay o, forgetting_rate o, rate_a o, rate_b o, rate_algor o)) None
  | Gibbs => mkPlan iters (log_frequency o) (use_approximations o) (debug o) None None
               (Some (or_z kw_burn (burn_in o), or_z kw_thin (thin o)))
  | _ => mkPlan iters (log_frequency o) (use_approximations o) (debug o) (s_perp_tolerance s) None None
  end.
(** newTrainPlan of lda_gibbs.py, lines 166-175: sweeps in all, of which burned, and the
    distance of samples. *)
Definition gibbs_plan (iters burn th : Z) : Z * Z * Z :=
  let burn := if (burn <? 0)%Z then (iters / 2)%Z else burn in
  let th := if (th <? 0)%Z then (if iters <=? 100 then 5 else if iters <=? 1000 then 10 else 50)%Z else th in
  ((iters + burn)%Z, burn, th).
(** newTrainPlan of mom_gibbs.py, lines 130-145: burned sweeps and thinning when, as here,
    none are passed. *)
Definition mom_gibbs_plan (iters : Z) : Z * Z := ((iters / 4)%Z, Z.min 1 (iters / 10)).

(** ** Priors

    doc_topic_prior and topic_word_prior are numbers or vectors (lines 148-149, and the
    modules' own documentation, e.g. lda_cvb0.py lines 94-95). *)
Inductive number := PyFloat | PyInt | NpFloat.
Inductive dtype := F32 | F64 | I32 | I64.
Inductive prior := PNone | PNum (t : number) (x : Q) | PVec (t : dtype) (v : list Q).
(** The dtype of the modules' models by default. *)
Definition model_dtype (k : kind) : dtype :=
  match k with CVB0 | CVB | VB | SVB => F32 | _ => F64 end.
Definition dtype_eqb (a b : dtype) : bool :=
  match a, b with F32, F32 | F64, F64 | I32, I32 | I64, I64 => true | _, _ => false end.

Section Priors.
  (** Rounding to the 32-bit numbers. *)
  Context (rnd : Q -> Q).
  Definition stored (k : kind) (x : Q) : Q := match model_dtype k with F32 => rnd x | _ => x end.
  (** constantArray, util/misc.py lines 23-30. *)
  Definition constant (k : kind) (n : nat) (x : Q) : prior := PVec (model_dtype k) (repeat (stored k x) n).
  Definition qsum (v : list Q) : Q := fold_right Qplus 0%Q v.
  Definition qmean (v : list Q) : Q := (qsum v / inject_Z (Z.of_nat (List.length v)))%Q.

  (** newModelAtRandom as far as the topic prior goes: lda_cvb0.py 107-108, lda_cvb.py
      108-109, lda_vb.py 102-103, lda_vb_python.py 90-93, lda_svb.py 102-107,
      lda_gibbs.py 91-94, mom_em.py 87-90, mom_gibbs.py 79-82. *)
  Definition topic_default (k : kind) (K : nat) : Q :=
    let n := inject_Z (Z.of_nat K) in
    match k with
    | CVB0 | CVB => (50 / n + (1 # 2))%Q
    | VB | SVB | Gibbs => (50 / n)%Q
    | VBPython | MomVB | MomGibbs => (5 / n + (1 # 2))%Q
    end.
  Definition keep_topic (k : kind) (K : nat) (p : prior) : prior :=
    match p with
    | PNone => constant k K (topic_default k K)
    | PNum PyFloat x =>
        match k with CVB0 | CVB | VB => p | _ => constant k K x end
    | PNum PyInt x => match k with Gibbs => constant k K x | _ => p end
    | _ => p
    end.

  (** rd.dirichlet(alpha, ...) takes the length of alpha. *)
  Definition dirichlet_arg (p : prior) : res (list Q) := match p with PVec _ v => Ok v | _ => Raise TypeError end.
  (** A typed memoryview of rank one. *)
  Definition memoryview (t : dtype) (p : prior) : res (list Q) :=
    match p with
    | PVec u v => if dtype_eqb t u then Ok v else Raise ValueError
    | PNum NpFloat _ => Raise ValueError
    | _ => Raise TypeError
    end.
  (** [dist = p.copy(); dist /= dist.sum()], lda_vb_python.py 129-132, mom_em.py 134-137,
      mom_gibbs.py 120-123: integers have no copy; an integer vector cannot be divided in
      place; a numpy number can, and then has no length. *)
  Definition copied_and_scaled (p : prior) : res (list Q) :=
    match p with
    | PVec (F32 | F64) v => Ok v
    | PVec _ _ => Raise TypeError
    | PNum NpFloat _ => Raise TypeError
    | _ => Raise AttributeError
    end.
  (** The prior used in training, from newQueryState and the start of train. *)
  Definition use_topic (k : kind) (K : nat) (p : prior) : res (list Q) :=
    match k with
    | CVB0 | CVB =>       (* lda_cvb0.py 219, lda_cvb.py 230: topicPrior_.mean() *)
        match p with
        | PVec _ v => Ok (repeat (rnd (qmean v)) K)
        | PNum NpFloat x => Ok (repeat (rnd x) K)
        | _ => Raise AttributeError
        end
    | VB | SVB =>         (* lda_vb.py 135 and 234-237, lda_svb.py 140 and 243-246 *)
        do _ <- dirichlet_arg p; memoryview F32 p
    | Gibbs => memoryview F64 p             (* lda_gibbs.py 206-214 *)
    | VBPython | MomVB | MomGibbs => copied_and_scaled p
    end.
  Definition topic_prior (k : kind) (K : nat) (p : prior) : res (list Q) := use_topic k K (keep_topic k K p).

  (** The word prior: lda_cvb0.py 109-110, lda_cvb.py 110-111, lda_vb.py 104-107,
      lda_svb.py 108-111, lda_gibbs.py 95-98, mom_em.py 91-96, mom_gibbs.py 83-84,
      lda_vb_python.py 94-95. *)
  Definition word_default (k : kind) : Q :=
    match k with
    | CVB0 | CVB => ((1 # 10) + (1 # 2))%Q
    | Gibbs => 1 # 10
    | _ => 11 # 10
    end.
  Definition keep_word (k : kind) (T : nat) (p : prior) : res prior :=
    let p := match p, k with
             | PNone, Gibbs => constant k T (word_default k)
             | PNone, _ => PNum PyFloat (word_default k)
             | _, _ => p
             end in
    match k, p with
    | (VB | SVB), PVec _ _ => Raise OtherError      (* constantArray with a vector *)
    | Gibbs, PNum PyFloat x => Ok (constant k T x)
    | MomVB, PNum _ x => Ok (constant k T x)
    | _, _ => Ok p
    end.
  (** Use: an argument of type float or double in the compiled loops (lda_cvb0_fast.pyx
      377 and 460, lda_cvb_fast.pyx 409 and 522, lda_vb_fast.pyx 63), a memoryview in
      lda_gibbs_fast.pyx 171, [grad.fill(vocabPrior)] in lda_vb_python.py 402, sums in
      mom_em.py 248-249 and mom_gibbs.py 216. *)
  Definition use_word (k : kind) (T : nat) (p : prior) : res (list Q) :=
    match k, p with
    | (CVB0 | CVB | VB | SVB), PNum _ x => Ok (repeat (rnd x) T)
    | (CVB0 | CVB | VB | SVB), _ => Raise TypeError
    | Gibbs, _ => memoryview F64 p
    | VBPython, PNum _ x => Ok (repeat x T)
    | VBPython, _ => Raise ValueError
    | (MomVB | MomGibbs), PNum _ x => Ok (repeat x T)
    | (MomVB | MomGibbs), PVec _ v => if Nat.eqb (List.length v) T then Ok v else Raise ValueError
    | _, PNone => Raise TypeError
    end.
  Definition word_prior (k : kind) (T : nat) (p : prior) : res (list Q) :=
    do p <- keep_word k T p; use_word k T p.
End Priors.

(** ** Scores: which functions the modules have

    log_likelihood_expected: lda_cvb0.py 395 and mom_em.py 317 only.
    perplexity_from_like: imported by all but lda_gibbs.py.  Query states with a field
    topicDists or n_dk (lines 463-472): all but lda_gibbs.py. *)
Definition has_expected (k : kind) : bool := match k with CVB0 | MomVB => true | _ => false end.
Definition has_perplexity (k : kind) : bool := match k with Gibbs => false | _ => true end.
Definition has_amendable (k : kind) : bool := match k with Gibbs => false | _ => true end.
Definition kind_ops {Mdl Qs Dat Y Cm V} (k : kind) (o : @module_ops Mdl Qs Dat Y Cm V) : @module_ops Mdl Qs Dat Y Cm V :=
  mkOps (new_model o) (new_query o) (m_train o) (m_query o) (topics_of o) (words_of o)
    (has_amendable k) (ll_point o)
    (if has_expected k then ll_expected o else fun _ _ _ => Raise AttributeError)
    (if has_perplexity k then perplexity o else fun _ _ => Raise AttributeError).

(** ** Corpora: the lengths of documents and the number type of the words

    [np.squeeze] of a sum over rows has rank zero for a single document. *)
Definition lens_rank (docs : nat) : nat := if Nat.eqb docs 1 then 0 else 1.
(** toWordList, lda_cvb0.py 164-174 and lda_cvb.py 179-189: three types of words, and the
    lengths as a memoryview of rank one. *)
Definition to_word_list (t : dtype) (docs : nat) : res unit :=
  match t with
  | I32 | F32 | F64 => if Nat.eqb (lens_rank docs) 1 then Ok tt else Raise ValueError
  | I64 => Raise ValueError
  end.
(** newQueryState and the start of train or query. *)
Definition take_corpus (k : kind) (t : dtype) (docs : nat) : res unit :=
  match k with
  | CVB0 | CVB | VB | SVB => to_word_list t docs
  | VBPython | MomGibbs => (* docLens[:, np.newaxis]: lda_vb_python.py 133, mom_gibbs.py 124 *)
      if Nat.eqb (lens_rank docs) 1 then Ok tt else Raise IndexError
  | Gibbs =>               (* docLens.shape[0]: lda_gibbs.py 192, 233 *)
      if Nat.eqb (lens_rank docs) 1 then Ok tt else Raise IndexError
  | MomVB => Ok tt
  end.

(** ** Queries of few iterations

    [step] is one iteration over the words of the documents, [start] the random state of
    newQueryState, which sees only the lengths.  None stands for topics that are not
    numbers (zero divided by zero). *)
Section Queries.
  Context {W T : Type} (lengths : W -> list nat) (start : list nat -> T) (step : W -> T -> T) (close : T -> T -> bool)
          (average : list T -> T).
  Fixpoint iterate (n : nat) (w : W) (x : T) : T := match n with 0 => x | S n => iterate n w (step w x) end.
  Fixpoint iterate_until (n : nat) (w : W) (x : T) : T :=
    match n with 0 => x | S n => let y := step w x in if close y x then y else iterate_until n w y end.
  (** The states at the iterations that count as samples. *)
  Fixpoint samples (is_sample : nat -> bool) (from n : nat) (w : W) (x : T) : list T :=
    match n with
    | 0 => []
    | S n => let y := step w x in
             (if is_sample from then [y] else []) ++ samples is_sample (S from) n w y
    end.
  Definition mean_of (l : list T) : option T := match l with [] => None | _ => Some (average l) end.

  (** lda_gibbs.py 224-268 and lda_gibbs_fast.pyx 262; mom_gibbs.py 222-225, 325-334;
      mom_em.py 301-313 (the last line uses the loop counter); lda_vb.py 330-343 and
      lda_svb.py 340-353 (the loop for 64 bits gets arrays of the default 32); lda_cvb0.py 351 with 275-283; lda_vb_python.py 758. *)
  Definition query_topics (k : kind) (s : settings) (iters : nat) (w : W) : res (option T) :=
    let x := start (lengths w) in
    let i := Z.of_nat iters in
    match k with
    | Gibbs =>
        let '(all, burn, th) := gibbs_plan i (burn_in (s_others s)) (thin (s_others s)) in
        if (th =? 0)%Z then Raise MemoryOOB (* C's remainder by zero: undefined *) else
        let x := iterate (Z.to_nat burn) w x in
        Ok (mean_of (samples (fun n => (Z.of_nat (S n) mod th =? 0)%Z) 0 (Z.to_nat (all - burn)) w x))
    | MomGibbs =>
        let '(burn, th) := mom_gibbs_plan i in
        let due n := Nat.ltb 0 n && (burn <? Z.of_nat n)%Z in
        if existsb due (seq 0 iters) && (th =? 0)%Z then Raise ZeroDivisionError else
        Ok (mean_of (samples (fun n => due n && (Z.of_nat n mod th =? 0)%Z) 0 iters w x))
    | MomVB => match iters with 0 => Raise UnboundLocalError | _ => Ok (Some (iterate_until iters w x)) end
    | VB | SVB => match iters with 0 => Ok (Some x) | _ => Raise ValueError end
    | _ => Ok (Some (iterate iters w x))
    end.
  (** [transform] without arguments, line 374. *)
  Definition transform_topics (k : kind) (s : settings) (w : W) : res (option T) :=
    query_topics k s (Z.to_nat (or_z None (or_z (s_query_iterations s) 0))) w.
End Queries.
