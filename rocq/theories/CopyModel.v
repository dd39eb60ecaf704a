(** * Model of newModelFromExisting and topicDists of the modules of
    /repo/sidetopics/model that run/__main__.py can use, and of the copies that its
    evaluations make of one model, a copy for each fold (lines 402-408, 430-433, 522-526,
    629-633, 814-818, 880-886, 986-993, 1091-1098).

    An array is an address of the heap; the other values cannot change. *)
From Coq Require Import List String Arith Bool Reals.
From Verif Require Import Base UvModel.
Import ListNotations.
Open Scope nat_scope.
Open Scope string_scope.
Open Scope list_scope.

(** ** Values *)
Section values.
  Context {N A : Type}.      (* numbers, names and types; what an array holds *)
  (** None, an object of Python, a scalar of numpy (which has a method copy), an array. *)
  Inductive leaf := LNone | LNum (n : N) | LNp (n : N) | LArr (a : nat).
  Definition heap : Type := list A.
  Definition copy_leaf (h : heap) (l : leaf) : res (leaf * heap) :=
    match l with
    | LArr a => match nth_error h a with
                | Some x => Ok (LArr (List.length h), h ++ [x])
                | None => Raise MemoryOOB
                end
    | LNp n => Ok (LNp n, h)
    | LNone | LNum _ => Raise AttributeError
    end.

  (** ** The arguments of the calls of ModelState in newModelFromExisting *)
  Inductive source :=
  | Keep (f : string)                  (* model.f *)
  | Copy (f : string)                  (* model.f.copy() *)
  | CopyIf (g f : string)              (* None if model.g is None else model.f.copy() *)
  | NpArray (f : string)               (* np.array(model.f) *)
  | Vocab (f : string).                (* model.f.copy() if withLdaModel is None else lda_vocab(withLdaModel) *)
  (** A module: the fields of its ModelState, and the arguments. *)
  Record module_ := mkModule { fields : list string; sources : list source }.

  Variable zero_dim : leaf -> A.       (* np.array of something else than an array *)
  Variable vocab : option A.           (* lda_vocab(withLdaModel), a new array *)

  Definition eval_source (h : heap) (m : tuple leaf) (s : source) : res (leaf * heap) :=
    match s with
    | Keep f => do v <- getattr m f; Ok (v, h)
    | Copy f => do v <- getattr m f; copy_leaf h v
    | CopyIf g f =>
      do v <- getattr m g;
      match v with
      | LNone => Ok (LNone, h)
      | _ => do w <- getattr m f; copy_leaf h w
      end
    | NpArray f =>
      do v <- getattr m f;
      match v with
      | LArr _ => copy_leaf h v
      | _ => Ok (LArr (List.length h), h ++ [zero_dim v])
      end
    | Vocab f =>
      match vocab with
      | None => do v <- getattr m f; copy_leaf h v
      | Some x => Ok (LArr (List.length h), h ++ [x])
      end
    end.
  Fixpoint eval_sources (h : heap) (m : tuple leaf) (l : list source) : res (list leaf * heap) :=
    match l with
    | [] => Ok ([], h)
    | s :: r =>
      do (v, h1) <- eval_source h m s;
      do (vs, h2) <- eval_sources h1 m r;
      Ok (v :: vs, h2)
    end.
  Definition new_model_from_existing (mo : module_) (h : heap) (m : tuple leaf) : res (tuple leaf * heap) :=
    do (vs, h') <- eval_sources h m (sources mo);
    do t <- construct (fields mo) vs;
    Ok (t, h').

  (** What can be seen of a model. *)
  Inductive seen := SNone | SNum (n : N) | SNp (n : N) | SArr (x : option A).
  Definition see (h : heap) (l : leaf) : seen :=
    match l with
    | LNone => SNone
    | LNum n => SNum n
    | LNp n => SNp n
    | LArr a => SArr (nth_error h a)
    end.
  Definition look (h : heap) (m : tuple leaf) : tuple seen := map (fun '(f, l) => (f, see h l)) m.

  (** ** The folds of an evaluation: copy the model, train the copy.  [train]: the
      heap that training leaves, and with it the queries and scores of the fold.
      The result is what each copy was. *)
  Fixpoint folds (mo : module_) (train : nat -> heap -> tuple leaf -> heap) (n i : nat) (h : heap) (m : tuple leaf) : res (list (tuple seen)) :=
    match n with
    | 0 => Ok []
    | S n' =>
      do (m', h') <- new_model_from_existing mo h m;
      do r <- folds mo train n' (S i) (train i h' m') m;
      Ok (look h' m' :: r)
    end.
End values.
Arguments leaf : clear implicits.

(** ** The modules *)
(** ctm.py lines 65-68 and 78. *)
Definition ctm : module_ := mkModule ["K"; "topicMean"; "sigT"; "vocab"; "vocabPrior"; "dtype"; "name"]
  [Keep "K"; Copy "topicMean"; Copy "sigT"; Copy "vocab"; Keep "vocabPrior"; Keep "dtype"; Keep "name"].
(** ctm_bohning.py lines 71-74 and 92. *)
Definition ctm_bohning : module_ := mkModule ["K"; "topicMean"; "sigT"; "vocab"; "vocabPrior"; "A"; "dtype"; "name"]
  [Keep "K"; Copy "topicMean"; Copy "sigT"; Copy "vocab"; Keep "vocabPrior"; Copy "A"; Keep "dtype"; Keep "name"].
(** dmr.py lines 62-65 and 115-126. *)
Definition dmr : module_ := mkModule
  ["K"; "T"; "weights"; "topicPrior"; "vocabPrior"; "n_dk_samples"; "topicSum"; "vocabSum"; "numSamples"; "dtype"; "name"]
  [Keep "K"; Keep "T"; Copy "weights"; CopyIf "topicPrior" "topicPrior"; Keep "vocabPrior"; CopyIf "n_dk_samples" "n_dk_samples";
   CopyIf "topicSum" "topicSum"; CopyIf "vocabSum" "vocabSum"; Keep "numSamples"; Keep "dtype"; Keep "name"].
(** lda_cvb.py lines 59-62 and 72-83. *)
Definition lda_cvb : module_ := mkModule ["K"; "topicPrior"; "vocabPrior"; "n_dk"; "n_kt"; "n_k"; "v_dk"; "v_kt"; "v_k"; "dtype"; "name"]
  [Keep "K"; CopyIf "topicPrior" "topicPrior"; Keep "vocabPrior"; CopyIf "n_dk" "n_dk"; CopyIf "n_kt" "n_kt"; CopyIf "n_k" "n_k";
   CopyIf "v_dk" "n_dk"; CopyIf "v_kt" "n_kt"; CopyIf "v_k" "n_k"; Keep "dtype"; Keep "name"].
(** lda_cvb0.py lines 61-64 and 74-82. *)
Definition lda_cvb0 : module_ := mkModule ["K"; "topicPrior"; "vocabPrior"; "n_dk"; "n_kt"; "n_k"; "dtype"; "name"]
  [Keep "K"; CopyIf "topicPrior" "topicPrior"; Keep "vocabPrior"; CopyIf "n_dk" "n_dk"; CopyIf "n_kt" "n_kt"; CopyIf "n_k" "n_k"; Keep "dtype"; Keep "name"].
(** lda_gibbs.py lines 58-61 and 111-121. *)
Definition lda_gibbs : module_ := mkModule ["K"; "T"; "topicPrior"; "vocabPrior"; "topicSum"; "vocabSum"; "numSamples"; "processed"; "dtype"; "name"]
  [Keep "K"; Keep "T"; CopyIf "topicPrior" "topicPrior"; Keep "vocabPrior"; CopyIf "topicSum" "topicSum"; CopyIf "vocabSum" "vocabSum";
   Keep "numSamples"; Keep "processed"; Keep "dtype"; Keep "name"].
(** lda_svb.py and lda_vb.py lines 61-64 and 74-80. *)
Definition lda_vb : module_ := mkModule ["K"; "topicPrior"; "vocabPrior"; "wordDists"; "dtype"; "name"]
  [Keep "K"; Copy "topicPrior"; Keep "vocabPrior"; CopyIf "wordDists" "wordDists"; Keep "dtype"; Keep "name"].
Definition lda_svb : module_ := lda_vb.
(** lda_vb_python.py lines 48-51 and 57-64. *)
Definition lda_vb_python : module_ := mkModule ["K"; "topicPrior"; "vocabPrior"; "wordDists"; "processed"; "dtype"; "name"]
  [Keep "K"; Copy "topicPrior"; Keep "vocabPrior"; CopyIf "wordDists" "wordDists"; Keep "processed"; Keep "dtype"; Keep "name"].
(** lro_vb.py lines 48-51 and 73-78, without the field ldaModel (see [with_lda]). *)
Definition lro_vb : module_ := mkModule ["K"; "noiseVar"; "predVar"; "scale"; "dtype"; "name"]
  [Keep "K"; Keep "noiseVar"; NpArray "predVar"; Keep "scale"; Keep "dtype"; Keep "name"].
(** sim_based_rec.py lines 50-53 and 72-75, without the field ldaModel. *)
Definition sim_based_rec : module_ := mkModule ["K"; "method"; "dtype"; "name"] [Keep "K"; Keep "method"; Keep "dtype"; Keep "name"].
(** mom_em.py lines 43-46 and 53-61. *)
Definition mom_em : module_ := mkModule ["K"; "topicPrior"; "vocabPrior"; "wordDistParam"; "corpusTopicDistParam"; "processed"; "dtype"; "name"]
  [Keep "K"; Keep "topicPrior"; Keep "vocabPrior"; CopyIf "wordDistParam" "wordDistParam"; CopyIf "corpusTopicDistParam" "corpusTopicDistParam";
   Keep "processed"; Keep "dtype"; Keep "name"].
(** mom_gibbs.py lines 36-39 and 46-53. *)
Definition mom_gibbs : module_ := mkModule ["K"; "topicPrior"; "vocabPrior"; "wordDists"; "processed"; "dtype"; "name"]
  [Keep "K"; Keep "topicPrior"; Keep "vocabPrior"; CopyIf "wordDists" "wordDists"; Keep "processed"; Keep "dtype"; Keep "name"].
(** mtm2.py lines 69-72 and 93-101. *)
Definition mtm2 : module_ := mkModule ["K"; "topicMean"; "topicCov"; "vocab"; "A"; "dtype"; "name"]
  [Keep "K"; Copy "topicMean"; Copy "topicCov"; Copy "vocab"; Copy "A"; Keep "dtype"; Keep "name"].
(** mtm3.py lines 81-84 and 106-116. *)
Definition mtm3 : module_ := mkModule ["K"; "topicMean"; "topicCov"; "outDocCov"; "vocab"; "A"; "trained"; "dtype"; "name"]
  [Keep "K"; Copy "topicMean"; Copy "topicCov"; Keep "outDocCov"; Vocab "vocab"; Copy "A"; Keep "trained"; Keep "dtype"; Keep "name"].
(** rtm.py lines 36-39 and 45-54. *)
Definition rtm : module_ := mkModule ["K"; "topicPrior"; "vocabPrior"; "wordDists"; "weights"; "pseudoNegCount"; "regularizer"; "dtype"; "name"]
  [Keep "K"; Copy "topicPrior"; Keep "vocabPrior"; CopyIf "wordDists" "wordDists"; CopyIf "weights" "weights"; Keep "pseudoNegCount";
   Keep "regularizer"; Keep "dtype"; Keep "name"].
(** stm_yv.py lines 63-66 and 77-89. *)
Definition stm_yv : module_ := mkModule ["F"; "P"; "K"; "A"; "R_A"; "fv"; "Y"; "R_Y"; "lfv"; "V"; "sigT"; "vocab"; "vocabPrior"; "dtype"; "name"]
  [Keep "F"; Keep "P"; Keep "K"; CopyIf "A" "A"; CopyIf "R_A" "R_A"; Keep "fv"; CopyIf "Y" "Y"; CopyIf "R_Y" "R_Y"; Keep "lfv"; CopyIf "V" "V";
   CopyIf "sigT" "sigT"; CopyIf "vocab" "vocab"; Keep "vocabPrior"; Keep "dtype"; Keep "name"].
(** stm_yv_bohning.py lines 62-65 and 75-85; stm_yv_bohning_fake_online.py lines 64-67
    and 77-87. *)
Definition stm_yv_bohning : module_ := mkModule
  ["F"; "P"; "K"; "A"; "R_A"; "fv"; "Y"; "R_Y"; "lfv"; "V"; "sigT"; "vocab"; "vocabPrior"; "Ab"; "dtype"; "name"]
  [Keep "F"; Keep "P"; Keep "K"; CopyIf "A" "A"; CopyIf "R_A" "R_A"; Keep "fv"; CopyIf "Y" "Y"; CopyIf "R_Y" "R_Y"; Keep "lfv"; CopyIf "V" "V";
   CopyIf "sigT" "sigT"; CopyIf "vocab" "vocab"; Keep "vocabPrior"; CopyIf "Ab" "Ab"; Keep "dtype"; Keep "name"].
Definition stm_yv_bohning_fake_online : module_ := stm_yv_bohning.
(** stm_uv_vec_y_bohning.py lines 73-76 and 102-120. *)
Definition stm_uv_vec_y_bohning : module_ := mkModule ["K"; "A"; "U"; "Y"; "V"; "covA"; "tv"; "ltv"; "fv"; "lfv"; "vocab"; "vocabPrior"; "dtype"; "name"]
  [Keep "K"; CopyIf "A" "A"; CopyIf "U" "U"; CopyIf "Y" "Y"; CopyIf "V" "V"; CopyIf "covA" "covA"; Keep "tv"; Keep "ltv"; Keep "fv"; Keep "lfv";
   CopyIf "vocab" "vocab"; Keep "vocabPrior"; Keep "dtype"; Keep "name"].
(** The names of run/__main__.py, lines 26-47, and their modules. *)
Definition modules : list module_ :=
  [ctm; ctm_bohning; dmr; lda_cvb; lda_cvb0; lda_gibbs; lda_svb; lda_vb; lda_vb_python; lro_vb; sim_based_rec; mom_em; mom_gibbs; mtm2; mtm3; rtm;
   stm_yv; stm_yv_bohning; stm_yv_bohning_fake_online; stm_uv_vec_y_bohning].

(** newModelFromExisting of lro_vb.py, lines 64-78, and of sim_based_rec.py, lines
    63-75: the topic model inside is copied, or replaced by [withLdaModel]. *)
Definition with_lda {N A} (zero_dim : leaf N -> A) (mo : module_) (withLdaModel : option (tuple (leaf N)))
  (h : @heap A) (ldaModel m : tuple (leaf N)) : res (tuple (leaf N) * tuple (leaf N) * heap) :=
  do (l, h1) <- match withLdaModel with
                | Some l => Ok (l, h)
                | None => new_model_from_existing zero_dim None lda_vb_python h ldaModel
                end;
  do (m', h2) <- new_model_from_existing zero_dim None mo h1 m;
  Ok (l, m', h2).

(** ** topicDists *)
(** A matrix with its numbers of rows and columns, a number, something else. *)
Inductive cell := CMat (rows cols : nat) (m : nat -> nat -> R) | CNum (x : R) | COther.
Inductive accessor :=
| Field (f : string)                  (* query.f *)
| NormRows (f : string)               (* the rows of query.f over their sums *)
| NormFirst (f : string)              (* the same without the last column *)
| Average (f g : string)              (* query.f / query.g *)
| ExpMinusSum (f : string)            (* np.exp(query.f - query.f.sum(axis=1)), and so on *)
| Missing.                            (* the module has no such function *)
Definition row_sum (n : nat) (v : nat -> R) : R := fold_right Rplus 0%R (map v (seq 0 n)).
Definition norm_rows (rows cols : nat) (m : nat -> nat -> R) : cell :=
  CMat rows cols (fun d k => m d k / row_sum cols (m d))%R.
Definition topic_dists (acc : accessor) (q : tuple cell) : res cell :=
  match acc with
  | Field f => getattr q f
  | NormRows f => do v <- getattr q f; match v with CMat r c m => Ok (norm_rows r c m) | _ => Raise TypeError end
  | NormFirst f => do v <- getattr q f; match v with CMat r c m => Ok (norm_rows r (c - 1) m) | _ => Raise TypeError end
  | Average f g =>
    do v <- getattr q f; do n <- getattr q g;
    match v, n with CMat r c m, CNum x => Ok (CMat r c (fun d k => m d k / x)%R) | _, _ => Raise TypeError end
  | ExpMinusSum f =>
    do v <- getattr q f;
    match v with
    | CMat r c m =>
      (* numpy takes one number for each column *)
      let e := fun d k => exp (m d k - row_sum c (m k)) in
      if Nat.eqb r c then Ok (CMat r c (fun d k => e d k / row_sum c (e k))%R) else Raise ValueError
    | _ => Raise TypeError
    end
  | Missing => Raise AttributeError
  end.
(** The module, the fields of its QueryState, and its topicDists. *)
Record query_module := mkQuery { q_name : string; q_fields : list string; q_topics : accessor }.
Definition query_modules : list query_module :=
  [mkQuery "ctm" ["means"; "expMeans"; "varcs"; "lxi"; "s"; "docLens"] Missing;                           (* ctm.py 60-63 *)
   mkQuery "ctm_bohning" ["means"; "expMeans"; "varcs"; "docLens"] (ExpMinusSum "topicMean");              (* ctm_bohning.py 66-69, 83-86 *)
   mkQuery "dmr" ["w_list"; "z_list"; "docLens"; "topicSum"; "numSamples"] (Average "topicSum" "numSamples");  (* dmr.py 57-60, 358-364 *)
   mkQuery "lda_cvb" ["W_list"; "docLens"; "n_dk"; "n_kt"; "n_k"; "v_dk"; "v_kt"; "v_k"; "z_dnk"] (NormRows "n_dk");  (* lda_cvb.py 54-57, 172-173 *)
   mkQuery "lda_cvb0" ["W_list"; "docLens"; "n_dk"; "n_kt"; "n_k"; "z_dnk"] (NormRows "n_dk");             (* lda_cvb0.py 56-59, 185-186 *)
   mkQuery "lda_gibbs" ["w_list"; "z_list"; "docLens"; "topicSum"; "numSamples"; "processed"] (Average "topicSum" "numSamples");  (* lda_gibbs.py 53-56, 261-268 *)
   mkQuery "lda_svb" ["W_list"; "docLens"; "topicDists"] (NormRows "topicDists");                          (* lda_svb.py 56-59, 365-374 *)
   mkQuery "lda_vb" ["W_list"; "docLens"; "topicDists"] (NormRows "topicDists");                           (* lda_vb.py 56-59, 355-364 *)
   mkQuery "lda_vb_python" ["docLens"; "topicDists"; "processed"] (NormRows "topicDists");                 (* lda_vb_python.py 43-46, 176-185 *)
   mkQuery "lro_vb" ["ldaQuery"; "offsetTopicDists"] Missing;                                              (* lro_vb.py 43-46 *)
   mkQuery "sim_based_rec" ["reps"; "ldaTopics"] Missing;                                                  (* sim_based_rec.py 45-48 *)
   mkQuery "mom_em" ["docLens"; "topicDists"; "processed"] (Field "topicDists");                           (* mom_em.py 38-41, 176-181 *)
   mkQuery "mom_gibbs" ["docLens"; "topicDists"; "processed"] (Field "topicDists");                        (* mom_gibbs.py 31-34, 159-164 *)
   mkQuery "mtm2" ["means"; "varcs"; "docLens"] (ExpMinusSum "topicMean");                                 (* mtm2.py 64-67, 84-87 *)
   mkQuery "mtm3" ["outMeans"; "outVarcs"; "inMeans"; "inVarcs"; "inDocCov"; "docLens"] (ExpMinusSum "topicMean");  (* mtm3.py 76-79, 97-100 *)
   mkQuery "rtm" ["docLens"; "topicDists"] (NormFirst "topicDists");                                       (* rtm.py 31-34, 157-167 *)
   mkQuery "stm_yv" ["means"; "expMeans"; "varcs"; "lxi"; "s"; "docLens"] Missing;                         (* stm_yv.py 58-61 *)
   mkQuery "stm_yv_bohning" ["means"; "expMeans"; "varcs"; "docLens"] Missing;                             (* stm_yv_bohning.py 57-60 *)
   mkQuery "stm_yv_bohning_fake_online" ["means"; "expMeans"; "varcs"; "docLens"] Missing;                 (* stm_yv_bohning_fake_online.py 59-62 *)
   mkQuery "stm_uv_vec_y_bohning" ["means"; "docLens"] (ExpMinusSum "topicMean")].                         (* stm_uv_vec_y_bohning.py 68-71, 93-96 *)
