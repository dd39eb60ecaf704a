(** * The command line: what options configure, and which evaluations accept which models
    (/repo/sidetopics/run/__main__.py lines 24-298, 382-476, 481-682, 786-1137, 1148-1151, and
    the signatures in /repo/sidetopics/model) *)
From Coq Require Import List ZArith QArith Arith Bool String Lia.
From Verif Require Import Base.
Import ListNotations.
Open Scope nat_scope.
Local Open Scope string_scope.

(** ** Values and calls *)
(** [VObj] is any other object, named by the expression that denotes it. *)
Inductive value := VNone | VInt (z : Z) | VReal (q : Q) | VBool (b : bool) | VObj (name : string).
(** The parameters of a function: a name, and a default if there is one. *)
Definition params := list (string * option value).
Definition req (n : string) : string * option value := (n, None).
Definition opt (n : string) (v : value) : string * option value := (n, Some v).
(** The arguments of a call: by position, and by name. *)
Definition args := (list value * list (string * value))%type.
Definition lookup {A} (n : string) (l : list (string * A)) : option A :=
  match find (fun p => String.eqb (fst p) n) l with Some p => Some (snd p) | None => None end.
Definition names {A} (l : list (string * A)) : list string := map fst l.
Definition mem (n : string) (l : list string) : bool := existsb (String.eqb n) l.

(** Python's binding of arguments to parameters, for functions that take no variable
    number of arguments: TypeError for too many positional arguments, unknown names, names
    of parameters that have a positional argument, and missing arguments. *)
Fixpoint bind_rest (ps : params) (kw : list (string * value)) : res (list (string * value)) :=
  match ps with
  | [] => Ok []
  | (n, d) :: ps' =>
      match (match lookup n kw with Some v => Some v | None => d end) with
      | None => Raise TypeError
      | Some v => do r <- bind_rest ps' kw; Ok ((n, v) :: r)
      end
  end.
Fixpoint bind_args (ps : params) (pos : list value) (kw : list (string * value)) : res (list (string * value)) :=
  match pos, ps with
  | [], _ => if forallb (fun n => mem n (names ps)) (names kw) then bind_rest ps kw else Raise TypeError
  | _ :: _, [] => Raise TypeError
  | v :: pos', (n, _) :: ps' => do r <- bind_args ps' pos' kw; Ok ((n, v) :: r)
  end.

(** A module: its functions, and the fields of its named tuples QueryState and ModelState. *)
Record module := mkModule { m_functions : list (string * params); m_query : list string; m_model : list string }.
(** A call of a function of a module: AttributeError if it has no such function. *)
Definition call (m : module) (f : string) (a : args) : res (list (string * value)) :=
  match lookup f (m_functions m) with
  | None => Raise AttributeError
  | Some ps => bind_args ps (fst a) (snd a)
  end.

(** ** The modules *)
(** Defaults that are constants of the module appear by name. *)
(** /repo/sidetopics/model/ctm.py: lines 60, 65 (named tuples); newModelFromExisting 74,
    newModelAtRandom 80, newQueryState 116, newTrainPlan 149, train 158, query 314,
    log_likelihood 393. *)
Definition m_ctm : module := mkModule
  [("newModelFromExisting", [req "model"]);
   ("newModelAtRandom", [req "data"; req "K"; opt "vocabPrior" (VObj "VocabPrior"); opt "dtype" (VObj "DTYPE")]);
   ("newQueryState", [req "data"; req "modelState"]);
   ("newTrainPlan", [opt "iterations" (VInt 100); opt "epsilon" (VInt 2); opt "logFrequency" (VInt 10); opt "fastButInaccurate" (VBool false); opt "debug" (VObj "DEBUG")]);
   ("train", [req "dataset"; req "modelState"; req "queryState"; req "trainPlan"]);
   ("query", [req "dataset"; req "modelState"; req "queryState"; req "queryPlan"]);
   ("log_likelihood", [req "data"; req "modelState"; req "queryState"])]
  ["means"; "expMeans"; "varcs"; "lxi"; "s"; "docLens"]
  ["K"; "topicMean"; "sigT"; "vocab"; "vocabPrior"; "dtype"; "name"].
(** /repo/sidetopics/model/ctm_bohning.py: lines 66, 71 (named tuples); newModelFromExisting 88,
    newModelAtRandom 94, newQueryState 138, newTrainPlan 165, train 173, query 310,
    log_likelihood 369, wordDists 80. *)
Definition m_ctm_bohning : module := mkModule
  [("newModelFromExisting", [req "model"]);
   ("newModelAtRandom", [req "data"; req "K"; opt "vocabPrior" (VObj "VocabPrior"); opt "dtype" (VObj "DTYPE")]);
   ("newQueryState", [req "data"; req "modelState"]);
   ("newTrainPlan", [opt "iterations" (VInt 100); opt "epsilon" (VInt 2); opt "logFrequency" (VInt 10); opt "fastButInaccurate" (VBool false); opt "debug" (VObj "DEBUG")]);
   ("train", [req "data"; req "modelState"; req "queryState"; req "trainPlan"]);
   ("query", [req "data"; req "modelState"; req "queryState"; req "queryPlan"]);
   ("log_likelihood", [req "data"; req "modelState"; req "queryState"]);
   ("wordDists", [req "model"])]
  ["means"; "expMeans"; "varcs"; "docLens"]
  ["K"; "topicMean"; "sigT"; "vocab"; "vocabPrior"; "A"; "dtype"; "name"].
(** /repo/sidetopics/model/stm_yv.py: lines 58, 63 (named tuples); newModelFromExisting 73,
    newModelAtRandom 92, newQueryState 125, newTrainPlan 144, train 162, query 326,
    log_likelihood 400, is_undirected_link_predictor 154. *)
Definition m_stm_yv : module := mkModule
  [("newModelFromExisting", [req "model"]);
   ("newModelAtRandom", [req "data"; req "P"; req "K"; req "featVar"; req "latFeatVar"; opt "vocabPrior" (VObj "VocabPrior"); opt "dtype" (VObj "DTYPE")]);
   ("newQueryState", [req "data"; req "modelState"]);
   ("newTrainPlan", [opt "iterations" (VInt 100); opt "epsilon" (VInt 2); opt "logFrequency" (VInt 10); opt "fastButInaccurate" (VBool false); opt "debug" (VObj "DEBUG")]);
   ("train", [req "data"; req "modelState"; req "queryState"; req "trainPlan"]);
   ("query", [req "data"; req "modelState"; req "queryState"; req "queryPlan"]);
   ("log_likelihood", [req "data"; req "modelState"; req "queryState"]);
   ("is_undirected_link_predictor", [])]
  ["means"; "expMeans"; "varcs"; "lxi"; "s"; "docLens"]
  ["F"; "P"; "K"; "A"; "R_A"; "fv"; "Y"; "R_Y"; "lfv"; "V"; "sigT"; "vocab"; "vocabPrior"; "dtype"; "name"].
(** /repo/sidetopics/model/stm_yv_bohning.py: lines 57, 62 (named tuples); newModelFromExisting
    71, newModelAtRandom 87, newQueryState 121, newTrainPlan 151, train 167, query 347,
    log_likelihood 418, wordDists 548, is_undirected_link_predictor 159. *)
Definition m_stm_yv_bohning : module := mkModule
  [("newModelFromExisting", [req "model"]);
   ("newModelAtRandom", [req "data"; req "P"; req "K"; req "featVar"; req "latFeatVar"; opt "vocabPrior" (VObj "VocabPrior"); opt "dtype" (VObj "DTYPE")]);
   ("newQueryState", [req "data"; req "model"]);
   ("newTrainPlan", [opt "iterations" (VInt 100); opt "epsilon" (VInt 2); opt "logFrequency" (VInt 10); opt "fastButInaccurate" (VBool false); opt "debug" (VObj "DEBUG")]);
   ("train", [req "data"; req "modelState"; req "queryState"; req "trainPlan"]);
   ("query", [req "data"; req "modelState"; req "queryState"; req "queryPlan"]);
   ("log_likelihood", [req "data"; req "modelState"; req "queryState"]);
   ("wordDists", [req "model"]);
   ("is_undirected_link_predictor", [])]
  ["means"; "expMeans"; "varcs"; "docLens"]
  ["F"; "P"; "K"; "A"; "R_A"; "fv"; "Y"; "R_Y"; "lfv"; "V"; "sigT"; "vocab"; "vocabPrior"; "Ab"; "dtype"; "name"].
(** /repo/sidetopics/model/stm_yv_bohning_fake_online.py: lines 59, 64 (named tuples);
    newModelFromExisting 73, newModelAtRandom 89, newQueryState 123, newTrainPlan 153, train
    170, query 374, log_likelihood 442, is_undirected_link_predictor 161. *)
Definition m_stm_yv_bohning_fake_online : module := mkModule
  [("newModelFromExisting", [req "model"]);
   ("newModelAtRandom", [req "data"; req "P"; req "K"; req "featVar"; req "latFeatVar"; opt "vocabPrior" (VObj "VocabPrior"); opt "dtype" (VObj "DTYPE")]);
   ("newQueryState", [req "data"; req "model"]);
   ("newTrainPlan", [opt "iterations" (VInt 100); opt "epsilon" (VInt 2); opt "logFrequency" (VInt 10); opt "fastButInaccurate" (VBool false); opt "debug" (VObj "DEBUG")]);
   ("train", [req "data"; req "modelState"; req "queryState"; req "trainPlan"]);
   ("query", [req "data"; req "modelState"; req "queryState"; req "queryPlan"]);
   ("log_likelihood", [req "data"; req "modelState"; req "queryState"]);
   ("is_undirected_link_predictor", [])]
  ["means"; "expMeans"; "varcs"; "docLens"]
  ["F"; "P"; "K"; "A"; "R_A"; "fv"; "Y"; "R_Y"; "lfv"; "V"; "sigT"; "vocab"; "vocabPrior"; "Ab"; "dtype"; "name"].
(** /repo/sidetopics/model/mom_em.py: lines 38, 43 (named tuples); newModelFromExisting 49,
    newModelAtRandom 64, newQueryState 113, newTrainPlan 142, train 192, query 274, wordDists
    165. *)
Definition m_mom_em : module := mkModule
  [("newModelFromExisting", [req "model"]);
   ("newModelAtRandom", [req "data"; req "K"; opt "topicPrior" (VNone); opt "vocabPrior" (VObj "VOCAB_PRIOR"); opt "dtype" (VObj "DTYPE")]);
   ("newQueryState", [req "data"; req "modelState"; req "debug"]);
   ("newTrainPlan", [opt "iterations" (VInt 100); opt "epsilon" (VInt 2); opt "logFrequency" (VInt 10); opt "fastButInaccurate" (VBool false); opt "debug" (VBool false)]);
   ("train", [req "data"; req "model"; req "query"; req "plan"; opt "updateVocab" (VBool true)]);
   ("query", [req "data"; req "model"; req "queryState"; req "plan"]);
   ("wordDists", [req "modelState"])]
  ["docLens"; "topicDists"; "processed"]
  ["K"; "topicPrior"; "vocabPrior"; "wordDistParam"; "corpusTopicDistParam"; "processed"; "dtype"; "name"].
(** /repo/sidetopics/model/mom_gibbs.py: lines 31, 36 (named tuples); newModelFromExisting 42,
    newModelAtRandom 56, newQueryState 100, newTrainPlan 130, train 228, query 300, wordDists
    148. *)
Definition m_mom_gibbs : module := mkModule
  [("newModelFromExisting", [req "model"]);
   ("newModelAtRandom", [req "data"; req "K"; opt "topicPrior" (VNone); opt "vocabPrior" (VObj "VocabPrior"); opt "dtype" (VObj "DTYPE")]);
   ("newQueryState", [req "data"; req "modelState"; req "debug"]);
   ("newTrainPlan", [opt "iterations" (VInt 100); opt "epsilon" (VInt 2); opt "logFrequency" (VInt 10); opt "fastButInaccurate" (VBool false); opt "debug" (VBool false); opt "burnIn" (VNone); opt "thinning" (VNone)]);
   ("train", [req "data"; req "model"; req "query"; req "plan"; opt "updateVocab" (VBool true)]);
   ("query", [req "data"; req "model"; req "queryState"; req "queryPlan"]);
   ("wordDists", [req "modelState"])]
  ["docLens"; "topicDists"; "processed"]
  ["K"; "topicPrior"; "vocabPrior"; "wordDists"; "processed"; "dtype"; "name"].
(** /repo/sidetopics/model/stm_uv_vec_y_bohning.py: lines 68, 73 (named tuples);
    newModelFromExisting 98, newModelAtRandom 122, newQueryState 164, newTrainPlan 188, train
    196, query 430, log_likelihood 490, wordDists 90. *)
Definition m_stm_uv_vec_y_bohning : module := mkModule
  [("newModelFromExisting", [req "model"]);
   ("newModelAtRandom", [req "data"; req "K"; req "Q"; req "P"; opt "tv" (VReal (1 # 1000)); opt "ltv" (VReal (1 # 1000)); opt "fv" (VReal (1 # 1000)); opt "lfv" (VReal (1 # 1000)); opt "vocabPrior" (VObj "VocabPrior"); opt "dtype" (VObj "DTYPE")]);
   ("newQueryState", [req "data"; req "modelState"]);
   ("newTrainPlan", [opt "iterations" (VInt 100); opt "epsilon" (VInt 2); opt "logFrequency" (VInt 10); opt "fastButInaccurate" (VBool false); opt "debug" (VObj "DEBUG")]);
   ("train", [req "data"; req "modelState"; req "queryState"; req "trainPlan"]);
   ("query", [req "data"; req "modelState"; req "queryState"; req "queryPlan"]);
   ("log_likelihood", [req "data"; req "modelState"; req "queryState"]);
   ("wordDists", [req "model"])]
  ["means"; "docLens"]
  ["K"; "A"; "U"; "Y"; "V"; "covA"; "tv"; "ltv"; "fv"; "lfv"; "vocab"; "vocabPrior"; "dtype"; "name"].
(** /repo/sidetopics/model/lda_cvb.py: lines 54, 59 (named tuples); newModelFromExisting 68,
    newModelAtRandom 85, newQueryState 124, newTrainPlan 191, train 199, query 369,
    log_likelihood 388, wordDists 175. *)
Definition m_lda_cvb : module := mkModule
  [("newModelFromExisting", [req "model"]);
   ("newModelAtRandom", [req "data"; req "K"; opt "topicPrior" (VNone); opt "vocabPrior" (VNone); opt "dtype" (VObj "DTYPE")]);
   ("newQueryState", [req "data"; req "modelState"; opt "debug" (VBool false)]);
   ("newTrainPlan", [opt "iterations" (VInt 100); opt "epsilon" (VInt 2); opt "logFrequency" (VInt 10); opt "fastButInaccurate" (VBool false); opt "debug" (VObj "DEBUG")]);
   ("train", [req "data"; req "modelState"; req "queryState"; req "trainPlan"; opt "query" (VBool false)]);
   ("query", [req "data"; req "modelState"; req "queryState"; req "queryPlan"]);
   ("log_likelihood", [req "data"; req "modelState"; req "queryState"]);
   ("wordDists", [req "model"])]
  ["W_list"; "docLens"; "n_dk"; "n_kt"; "n_k"; "v_dk"; "v_kt"; "v_k"; "z_dnk"]
  ["K"; "topicPrior"; "vocabPrior"; "n_dk"; "n_kt"; "n_k"; "v_dk"; "v_kt"; "v_k"; "dtype"; "name"].
(** /repo/sidetopics/model/lda_cvb0.py: lines 56, 61 (named tuples); newModelFromExisting 70,
    newModelAtRandom 84, newQueryState 119, newTrainPlan 176, train 192, query 336, wordDists
    188. *)
Definition m_lda_cvb0 : module := mkModule
  [("newModelFromExisting", [req "model"]);
   ("newModelAtRandom", [req "data"; req "K"; opt "topicPrior" (VNone); opt "vocabPrior" (VNone); opt "dtype" (VObj "DTYPE")]);
   ("newQueryState", [req "data"; req "modelState"; opt "debug" (VBool false)]);
   ("newTrainPlan", [opt "iterations" (VInt 100); opt "epsilon" (VInt 2); opt "logFrequency" (VInt 10); opt "fastButInaccurate" (VBool false); opt "debug" (VObj "DEBUG")]);
   ("train", [req "data"; req "modelState"; req "queryState"; req "trainPlan"; opt "query" (VBool false)]);
   ("query", [req "data"; req "modelState"; req "queryState"; req "queryPlan"]);
   ("wordDists", [req "model"])]
  ["W_list"; "docLens"; "n_dk"; "n_kt"; "n_k"; "z_dnk"]
  ["K"; "topicPrior"; "vocabPrior"; "n_dk"; "n_kt"; "n_k"; "dtype"; "name"].
(** /repo/sidetopics/model/lda_vb_python.py: lines 43, 48 (named tuples); newModelFromExisting
    53, newModelAtRandom 67, newQueryState 111, newTrainPlan 146, train 337, query 739,
    log_likelihood 196, wordDists 164. *)
Definition m_lda_vb_python : module := mkModule
  [("newModelFromExisting", [req "model"]);
   ("newModelAtRandom", [req "data"; req "K"; opt "topicPrior" (VNone); opt "vocabPrior" (VObj "VocabPrior"); opt "dtype" (VObj "DTYPE")]);
   ("newQueryState", [req "data"; req "modelState"; opt "debug" (VBool false)]);
   ("newTrainPlan", [opt "iterations" (VInt 100); opt "epsilon" (VInt 2); opt "logFrequency" (VInt 10); opt "fastButInaccurate" (VBool false); opt "debug" (VBool false); opt "batchSize" (VInt 0); opt "rate_delay" (VReal (3 # 5)); opt "forgetting_rate" (VReal (3 # 5)); opt "rate_a" (VInt 2); opt "rate_b" (VReal (1 # 2)); opt "rate_algor" (VObj "RateAlgorBatch")]);
   ("train", [req "data"; req "model"; req "query"; req "plan"; opt "updateVocab" (VBool true)]);
   ("query", [req "data"; req "model"; req "query"; req "plan"]);
   ("log_likelihood", [req "data"; req "model"; req "query"; opt "topicDistOverride" (VNone)]);
   ("wordDists", [req "modelState"])]
  ["docLens"; "topicDists"; "processed"]
  ["K"; "topicPrior"; "vocabPrior"; "wordDists"; "processed"; "dtype"; "name"].
(** /repo/sidetopics/model/lda_gibbs.py: lines 53, 58 (named tuples); newModelFromExisting 107,
    newModelAtRandom 68, newQueryState 123, newTrainPlan 166, train 183, query 224,
    log_likelihood 279, wordDists 270. *)
Definition m_lda_gibbs : module := mkModule
  [("newModelFromExisting", [req "model"]);
   ("newModelAtRandom", [req "data"; req "K"; opt "topicPrior" (VNone); opt "vocabPrior" (VNone); opt "dtype" (VObj "DTYPE")]);
   ("newQueryState", [req "data"; req "modelState"; opt "debug" (VBool false)]);
   ("newTrainPlan", [req "iterations"; opt "burnIn" (VInt (-1)); opt "thin" (VInt (-1)); opt "logFrequency" (VInt 100); opt "fastButInaccurate" (VBool false); opt "debug" (VBool false)]);
   ("train", [req "_"; req "model"; req "query"; req "plan"]);
   ("query", [req "data"; req "model"; req "query"; req "plan"]);
   ("log_likelihood", [req "data"; req "model"; req "query"; opt "topicDistOverride" (VNone)]);
   ("wordDists", [req "model"])]
  ["w_list"; "z_list"; "docLens"; "topicSum"; "numSamples"; "processed"]
  ["K"; "T"; "topicPrior"; "vocabPrior"; "topicSum"; "vocabSum"; "numSamples"; "processed"; "dtype"; "name"].
(** /repo/sidetopics/model/rtm.py: lines 31, 36 (named tuples); newModelFromExisting 41,
    newModelAtRandom 57, newQueryState 107, newTrainPlan 133, train 388, query 655,
    log_likelihood 178, wordDists 146, min_link_probs 823, link_probs 858,
    is_undirected_link_predictor 818. *)
Definition m_rtm : module := mkModule
  [("newModelFromExisting", [req "model"]);
   ("newModelAtRandom", [req "data"; req "K"; opt "pseudoNegCount" (VNone); opt "regularizer" (VReal (1 # 1000)); opt "topicPrior" (VNone); opt "vocabPrior" (VNone); opt "dtype" (VObj "DTYPE")]);
   ("newQueryState", [req "data"; req "modelState"]);
   ("newTrainPlan", [opt "iterations" (VInt 100); opt "epsilon" (VInt 2); opt "logFrequency" (VInt 10); opt "fastButInaccurate" (VBool false); opt "debug" (VBool false)]);
   ("train", [req "data"; req "model"; req "query"; req "plan"; opt "updateVocab" (VBool true)]);
   ("query", [req "data"; req "model"; req "query"; req "plan"]);
   ("log_likelihood", [req "data"; req "modelState"; req "queryState"]);
   ("wordDists", [req "modelState"]);
   ("min_link_probs", [req "model"; req "topics"; req "links"]);
   ("link_probs", [req "model"; req "topics"; req "min_link_probs"]);
   ("is_undirected_link_predictor", [])]
  ["docLens"; "topicDists"]
  ["K"; "topicPrior"; "vocabPrior"; "wordDists"; "weights"; "pseudoNegCount"; "regularizer"; "dtype"; "name"].
(** /repo/sidetopics/model/mtm2.py: lines 64, 69 (named tuples); newModelFromExisting 89,
    newModelAtRandom 103, newQueryState 140, newTrainPlan 165, train 173, query 345,
    log_likelihood 401, wordDists 78, min_link_probs 522, link_probs 550,
    is_undirected_link_predictor 81. *)
Definition m_mtm2 : module := mkModule
  [("newModelFromExisting", [req "model"]);
   ("newModelAtRandom", [req "data"; req "K"; opt "dtype" (VObj "DTYPE")]);
   ("newQueryState", [req "data"; req "modelState"]);
   ("newTrainPlan", [opt "iterations" (VInt 100); opt "epsilon" (VInt 2); opt "logFrequency" (VInt 10); opt "fastButInaccurate" (VBool false); opt "debug" (VObj "DEBUG")]);
   ("train", [req "data"; req "modelState"; req "queryState"; req "trainPlan"]);
   ("query", [req "data"; req "modelState"; req "queryState"; req "queryPlan"]);
   ("log_likelihood", [req "data"; req "modelState"; req "queryState"]);
   ("wordDists", [req "model"]);
   ("min_link_probs", [req "model"; req "topics"; req "links"]);
   ("link_probs", [req "model"; req "topics"; req "min_link_probs"]);
   ("is_undirected_link_predictor", [])]
  ["means"; "varcs"; "docLens"]
  ["K"; "topicMean"; "topicCov"; "vocab"; "A"; "dtype"; "name"].
(** /repo/sidetopics/model/mtm3.py: lines 76, 81 (named tuples); newModelFromExisting 102,
    newModelAtRandom 119, newQueryState 237, newTrainPlan 274, train 282, query 487,
    log_likelihood 571, wordDists 91, min_link_probs 690, link_probs 728,
    is_undirected_link_predictor 94. *)
Definition m_mtm3 : module := mkModule
  [("newModelFromExisting", [req "model"; opt "withLdaModel" (VNone)]);
   ("newModelAtRandom", [req "data"; req "K"; opt "outDocCov" (VReal (1 # 1000)); opt "dtype" (VObj "DTYPE"); opt "withLdaModel" (VNone)]);
   ("newQueryState", [req "data"; req "modelState"; opt "withLdaTopics" (VNone)]);
   ("newTrainPlan", [opt "iterations" (VInt 100); opt "epsilon" (VInt 2); opt "logFrequency" (VInt 10); opt "fastButInaccurate" (VBool false); opt "debug" (VObj "DEBUG")]);
   ("train", [req "data"; req "modelState"; req "queryState"; req "trainPlan"]);
   ("query", [req "data"; req "modelState"; req "queryState"; req "queryPlan"]);
   ("log_likelihood", [req "data"; req "modelState"; req "queryState"]);
   ("wordDists", [req "model"]);
   ("min_link_probs", [req "model"; req "train_tops"; req "query_tops"; req "links"; opt "docSubset" (VNone)]);
   ("link_probs", [req "model"; req "train_tops"; req "query_tops"; req "min_link_probs"; opt "docSubset" (VNone)]);
   ("is_undirected_link_predictor", [])]
  ["outMeans"; "outVarcs"; "inMeans"; "inVarcs"; "inDocCov"; "docLens"]
  ["K"; "topicMean"; "topicCov"; "outDocCov"; "vocab"; "A"; "trained"; "dtype"; "name"].
(** /repo/sidetopics/model/dmr.py: lines 57, 62 (named tuples); newModelFromExisting 111,
    newModelAtRandom 72, newQueryState 128, newTrainPlan 157, train 173, query 315,
    log_likelihood 375, wordDists 366. *)
Definition m_dmr : module := mkModule
  [("newModelFromExisting", [req "model"]);
   ("newModelAtRandom", [req "data"; req "K"; opt "topicPrior" (VNone); opt "vocabPrior" (VNone); opt "dtype" (VObj "DTYPE")]);
   ("newQueryState", [req "data"; req "modelState"; opt "debug" (VBool false)]);
   ("newTrainPlan", [req "iterations"; opt "burnIn" (VInt (-1)); opt "thin" (VInt (-1)); opt "weightUpdateInterval" (VInt (-1)); opt "logFrequency" (VInt 100); opt "fastButInaccurate" (VBool false); opt "debug" (VBool false)]);
   ("train", [req "data"; req "model"; req "query"; req "plan"]);
   ("query", [req "data"; req "model"; req "query"; req "plan"]);
   ("log_likelihood", [req "data"; req "model"; req "query"]);
   ("wordDists", [req "model"])]
  ["w_list"; "z_list"; "docLens"; "topicSum"; "numSamples"]
  ["K"; "T"; "weights"; "topicPrior"; "vocabPrior"; "n_dk_samples"; "topicSum"; "vocabSum"; "numSamples"; "dtype"; "name"].
(** /repo/sidetopics/model/lro_vb.py: lines 43, 48 (named tuples); newModelFromExisting 64,
    newModelAtRandom 81, newQueryState 117, newTrainPlan 137, train 154, query 237,
    log_likelihood 257, wordDists 57, min_link_probs 277, link_probs 314,
    is_undirected_link_predictor 61. *)
Definition m_lro_vb : module := mkModule
  [("newModelFromExisting", [req "model"; opt "withLdaModel" (VNone)]);
   ("newModelAtRandom", [req "data"; req "K"; opt "noiseVar" (VInt 9); opt "predVar" (VNone); opt "topicPrior" (VNone); opt "vocabPrior" (VObj "lda.VocabPrior"); opt "ldaModel" (VNone); opt "dtype" (VObj "DTYPE")]);
   ("newQueryState", [req "data"; req "model"; opt "withLdaTopics" (VNone)]);
   ("newTrainPlan", [opt "iterations" (VInt 100); opt "epsilon" (VNone); opt "ldaIterations" (VNone); opt "ldaEpilson" (VInt 1); opt "logFrequency" (VInt 10); opt "fastButInaccurate" (VBool false); opt "debug" (VBool false)]);
   ("train", [req "data"; req "model"; req "query"; req "trainPlan"; opt "isQuery" (VBool false)]);
   ("query", [req "data"; req "model"; req "query"; req "plan"]);
   ("log_likelihood", [req "data"; req "model"; req "query"]);
   ("wordDists", [req "model"]);
   ("min_link_probs", [req "model"; req "train_tops"; req "query_tops"; req "links"; opt "docSubset" (VNone)]);
   ("link_probs", [req "model"; req "train_tops"; req "query_tops"; req "min_link_probs"; opt "docSubset" (VNone)]);
   ("is_undirected_link_predictor", [])]
  ["ldaQuery"; "offsetTopicDists"]
  ["ldaModel"; "K"; "noiseVar"; "predVar"; "scale"; "dtype"; "name"].
(** /repo/sidetopics/model/sim_based_rec.py: lines 45, 50 (named tuples); newModelFromExisting
    63, newModelAtRandom 78, newQueryState 115, newTrainPlan 133, train 149, query 206,
    log_likelihood 226, min_link_probs 251, link_probs 324, is_undirected_link_predictor 60. *)
Definition m_sim_based_rec : module := mkModule
  [("newModelFromExisting", [req "model"; opt "withLdaModel" (VNone)]);
   ("newModelAtRandom", [req "data"; req "K"; opt "method" (VObj "TF_IDF"); opt "topicPrior" (VNone); opt "vocabPrior" (VObj "lda.VocabPrior"); opt "ldaModel" (VNone); opt "dtype" (VObj "DTYPE")]);
   ("newQueryState", [req "_"; req "model"; opt "withLdaTopics" (VNone)]);
   ("newTrainPlan", [opt "iterations" (VInt 500); opt "epsilon" (VNone); opt "ldaIterations" (VNone); opt "ldaEpilson" (VInt 1); opt "logFrequency" (VInt 10); opt "fastButInaccurate" (VBool false); opt "debug" (VBool false)]);
   ("train", [req "data"; req "model"; req "query"; req "trainPlan"; opt "isQuery" (VBool false)]);
   ("query", [req "data"; req "model"; req "query"; req "plan"]);
   ("log_likelihood", [req "data"; req "model"; req "query"]);
   ("min_link_probs", [req "model"; req "train_tops"; req "query_tops"; req "links"; opt "docSubset" (VNone)]);
   ("link_probs", [req "model"; req "train_tops"; req "query_tops"; req "min_link_probs"; opt "docSubset" (VNone)]);
   ("is_undirected_link_predictor", [])]
  ["reps"; "ldaTopics"]
  ["ldaModel"; "K"; "method"; "dtype"; "name"].

(** ** Options *)
(** Lines 82-147, parsed; [None] for options without default that are not given.  The
    option --debug is a string, and as [type=bool] it is true if it is not empty. *)
Record options := mkOptions {
  o_model : string; o_K : option Z; o_Q : option Z; o_P : option Z;
  o_log_freq : Z; o_iters : Z; o_query_iters : Z; o_min_vb_change : Q;
  o_topic_var : Q; o_feat_var : Q; o_lat_topic_var : Q; o_lat_feat_var : Q; o_vocab_prior : Q;
  o_debug : option string; o_batch : Z; o_rate_delay : Q; o_forgetting : Q; o_dtype : string }.
Definition v_int (z : option Z) : value := match z with None => VNone | Some z => VInt z end.
Definition debug_of (o : options) : bool :=
  match o_debug o with None => false | Some s => negb (String.eqb s "") end.

(** Lines 24-49: what the help text names. *)
Definition model_names : list string :=
  ["ctm_bouchard"; "ctm_bohning"; "stm_yv_bouchard"; "stm_yv_bohning"; "stm_yv_bohning_fake_online"; "stm_uyv_bohning";
   "lda_cvb"; "lda_cvb0"; "lda_vb"; "lda_svb"; "lda_gibbs"; "rtm_vb"; "mtm_vb"; "lro_vb"; "dmr"; "mom_em"; "mom_gibbs"].

(** Lines 184-245: the module, the arguments of newModelAtRandom, and the name of the
    model that it makes. *)
Definition dispatch (o : options) : res (module * args * string) :=
  let data := VObj "data" in
  let K := v_int (o_K o) in let P := v_int (o_P o) in let Q := v_int (o_Q o) in
  let vp := VReal (o_vocab_prior o) in
  let fv := VReal (o_feat_var o) in let lfv := VReal (o_lat_feat_var o) in
  let tv := VReal (o_topic_var o) in let ltv := VReal (o_lat_topic_var o) in
  let dt := ("dtype", VObj (o_dtype o)) in
  match lookup (o_model o)
    [("ctm_bouchard", (m_ctm, ([data; K; vp], [dt]), "ctm/bouchard"));
     ("ctm_bohning", (m_ctm_bohning, ([data; K; vp], [dt]), "ctm/bohning"));
     ("stm_yv_bouchard", (m_stm_yv, ([data; P; K; fv; lfv; vp], [dt]), "stm-yv/bouchard"));
     ("stm_yv_bohning", (m_stm_yv_bohning, ([data; P; K; fv; lfv; vp], [dt]), "stm-yv/bohning"));
     ("stm_yv_bohning_fake_online", (m_stm_yv_bohning_fake_online, ([data; P; K; fv; lfv; vp], [dt]), "stm-yv/bohning/online/fake"));
     ("mom_em", (m_mom_em, ([data; K], [dt]), "mom/em"));
     ("mom_gibbs", (m_mom_gibbs, ([data; K], [dt]), "mom/em"));
     ("stm_uyv_bohning", (m_stm_uv_vec_y_bohning,
        ([data], [("K", K); ("Q", Q); ("P", P); ("tv", tv); ("ltv", ltv); ("fv", fv); ("lfv", lfv); ("vocabPrior", vp); dt]), "stm/uv_vecy/bohning"));
     ("lda_cvb", (m_lda_cvb, ([data; K], [dt]), "lda/vb/c0"));
     ("lda_cvb0", (m_lda_cvb0, ([data; K], [dt]), "lda/vb/c0"));
     ("lda_vb", (m_lda_vb_python, ([data; K; vp], [dt]), "lda/vbp"));
     ("lda_svb", (m_lda_vb_python, ([data; K; vp], [dt]), "lda/vbp"));
     ("lda_gibbs", (m_lda_gibbs, ([data; K], [dt]), "lda/gibbs"));
     ("rtm_vb", (m_rtm, ([data; K], [dt]), "rtm/vb"));
     ("mtm_vb", (m_mtm2, ([data; K], [dt]), "mtm/vb2"));
     ("mtm2_vb", (m_mtm3, ([data; K], [dt]), "mtm2/vb"));
     ("dmr", (m_dmr, ([data; K], [dt]), "dmr/gibbs_em"));
     ("lro_vb", (m_lro_vb, ([data; K], [dt]), "lro/vb"));
     ("sim_lda_vb", (m_sim_based_rec, ([data; K], [("method", VObj "LDA"); dt]), "sim/lda/vb"));
     ("sim_tfidf", (m_sim_based_rec, ([data; K], [("method", VObj "TF_IDF"); dt]), "sim/tfidf"))] with
  | None => Raise ValueError
  | Some r => Ok r
  end.
(** Lines 69-70. *)
Definition supports_sgd (m : string) : bool := String.eqb m "lda_svb".
(** Lines 248-259: the arguments of newTrainPlan. *)
Definition train_plan_args (o : options) : args :=
  if ((0 <? o_batch o)%Z && supports_sgd (o_model o))%bool
  then ([VInt (o_iters o)], [("batchSize", VInt (o_batch o)); ("rate_delay", VReal (o_rate_delay o));
                             ("forgetting_rate", VReal (o_forgetting o)); ("debug", VBool (debug_of o))])
  else ([VInt (o_iters o)], [("debug", VBool (debug_of o))]).
Definition query_plan_args (o : options) : args :=
  ([VInt (o_query_iters o)], [("debug", VBool (debug_of o))]).

(** Lines 181-259: the module, the name of the model, and what the parameters of
    newModelAtRandom and of newTrainPlan are bound to, for training and for queries. *)
Record setup := mkSetup { s_module : module; s_name : string; s_template : list (string * value); s_train : list (string * value); s_query : list (string * value) }.
Definition configure (o : options) : res setup :=
  do (r, name) <- dispatch o; let (m, a) := r : module * args in
  do t <- call m "newModelAtRandom" a;
  do p <- call m "newTrainPlan" (train_plan_args o);
  do q <- call m "newTrainPlan" (query_plan_args o);
  Ok (mkSetup m name t p q).

(** ** Evaluations *)
Inductive evaluation := Perplexity | HashtagPrecAtM | TagPrecAtM | MeanAveragePrecAllDocs | MeanPrecRecAtMAllDocs | LroMeanPrecRecAtMAllDocs | LroMeanPrecRecAtMFeatSplit.
(** What an evaluation asks of a module and of the states it returns. *)
Inductive demand := Calls (f : string) (a : args) | QueryField (n : string) | ModelField (n : string).
Definition objs (l : list string) : args := (map VObj l, []).
(** Lines 1148-1151. *)
Definition model_uses_lda (name : string) : bool := mem name ["lro/vb"; "sim/lda/vb"; "mtm2/vb"].
(** What is asked, in this order, of a model of that name, for each evaluation.
    Perplexity: lines 404-409 for one fold, 431-452 for more; tags: lines 631-644;
    hashtags: the same (lines 268-271), then lines 524-543; links: lines 807-827, 865-896, 962-1001, 1065-1109. *)
Definition copies (name : string) : list demand :=
  if model_uses_lda name
  then [Calls "newModelFromExisting" ([VObj "sample_model"], [("withLdaModel", VObj "ldaModel")]);
        Calls "newQueryState" ([VObj "train_data"; VObj "model"], [("withLdaTopics", VObj "ldaTopics")])]
  else [Calls "newModelFromExisting" (objs ["sample_model"]); Calls "newQueryState" (objs ["train_data"; "model"])].
Definition trains : list demand :=
  [Calls "train" (objs ["train_data"; "model"; "train_tops"; "train_plan"]);
   Calls "log_likelihood" (objs ["train_data"; "model"; "train_tops"])].
Definition queries (plan : string) : list demand :=
  [Calls "newQueryState" (objs ["query_data"; "model"]);
   Calls "query" (objs ["query_data"; "model"; "query_tops"; plan])].
Definition tag_demands : list demand :=
  [Calls "newModelFromExisting" (objs ["sample_model"]); Calls "newQueryState" (objs ["train_data"; "model"])] ++
  trains ++ queries "train_plan" ++ [QueryField "means"; Calls "wordDists" (objs ["model"])].
Definition demands (e : evaluation) (name : string) : list demand :=
  match e with
  | Perplexity =>
      [Calls "newModelFromExisting" (objs ["sample_model"]); Calls "newQueryState" (objs ["train_data"; "model"])] ++
      trains ++ queries "query_plan" ++ [Calls "log_likelihood" (objs ["query_eval"; "model"; "query_tops"])]
  | TagPrecAtM => tag_demands
  | HashtagPrecAtM =>
      tag_demands ++
      [Calls "newModelFromExisting" (objs ["sample_model"]); Calls "newQueryState" (objs ["train_data"; "model"]);
       Calls "train" (objs ["train_data"; "model"; "train_tops"; "train_plan"])] ++
      queries "train_plan" ++ [QueryField "means"; ModelField "vocab"]
  | MeanAveragePrecAllDocs =>
      [Calls "newModelFromExisting" (objs ["sample_model"]); Calls "is_undirected_link_predictor" (objs []);
       Calls "newQueryState" (objs ["train_data"; "model"])] ++ trains ++
      [Calls "min_link_probs" (objs ["model"; "train_tops"; "links"]); Calls "link_probs" (objs ["model"; "train_tops"; "min_link_probs"])]
  | MeanPrecRecAtMAllDocs =>
      [if String.eqb name "lro/vb" then Calls "newModelFromExisting" ([VObj "sample_model"], [("withLdaModel", VObj "ldaModel")])
       else Calls "newModelFromExisting" (objs ["sample_model"]);
       Calls "is_undirected_link_predictor" (objs []); Calls "newQueryState" (objs ["train_data"; "model"])] ++ trains ++
      [Calls "min_link_probs" (objs ["model"; "train_tops"; "links"]); Calls "link_probs" (objs ["model"; "train_tops"; "min_link_probs"])]
  | LroMeanPrecRecAtMAllDocs =>
      Calls "is_undirected_link_predictor" (objs []) :: copies name ++ trains ++
      [Calls "min_link_probs" (objs ["model"; "train_tops"; "train_tops"; "links"; "docSubset"]);
       Calls "link_probs" (objs ["model"; "train_tops"; "train_tops"; "min_link_probs"; "docSubset"])]
  | LroMeanPrecRecAtMFeatSplit =>
      Calls "is_undirected_link_predictor" (objs []) :: copies name ++ trains ++ queries "train_plan" ++
      [Calls "min_link_probs" (objs ["model"; "train_tops"; "query_tops"; "links"]);
       Calls "link_probs" (objs ["model"; "train_tops"; "query_tops"; "min_link_probs"])]
  end.
Definition meet (m : module) (d : demand) : res unit :=
  match d with
  | Calls f a => do _ <- call m f a; Ok tt
  | QueryField n => if mem n (m_query m) then Ok tt else Raise AttributeError
  | ModelField n => if mem n (m_model m) then Ok tt else Raise AttributeError
  end.
Fixpoint meet_all (m : module) (ds : list demand) : res unit :=
  match ds with
  | [] => Ok tt
  | d :: ds' => do _ <- meet m d; meet_all m ds'
  end.
(** One fold of an evaluation, as far as the calls it makes are concerned. *)
Definition evaluate (s : setup) (e : evaluation) : res unit := meet_all (s_module s) (demands e (s_name s)).
