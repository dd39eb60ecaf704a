(** * Model of /repo/sidetopics/model/old/sidetopic_uv_vecy.py: train (lines 63-271), varBound
    (lines 274-305) and newVbModelState (lines 308-345), as far as names, attributes and the
    numbers of arguments go.

    A named tuple is a list of names and values.  What is computed between the lines that are
    modelled is an argument that may return or raise anything. *)
From Coq Require Import List String ZArith Arith Bool.
From Verif Require Import Base.
Import ListNotations.
Open Scope string_scope.
Open Scope nat_scope.

Section vecy.
  Variable value : Type.
  Definition ntuple := list (string * value).
  (** The fields of VbSideTopicModelState, sidetopic_uyv.py lines 74-77. *)
  Definition fields : list string :=
    ["K"; "Q"; "F"; "P"; "T"; "A"; "varA"; "Y"; "omY"; "sigY"; "sigT"; "U"; "V"; "vocab"; "topicVar"; "featVar"; "lowTopicVar"; "lowFeatVar"].
  (** namedtuple: a call needs as many arguments as there are fields. *)
  Definition make (vals : list value) : res ntuple :=
    if List.length vals =? List.length fields then Ok (combine fields vals) else Raise TypeError.
  Fixpoint find (x : string) (e : list (string * value)) : option value :=
    match e with
    | [] => None
    | (y, v) :: e => if String.eqb x y then Some v else find x e
    end.
  Definition attr (t : ntuple) (x : string) : res value := match find x t with Some v => Ok v | None => Raise AttributeError end.
  (** A name in a function: a local or a name of the module. *)
  Definition name (e : list (string * value)) (x : string) : res value := match find x e with Some v => Ok v | None => Raise NameError end.
  Fixpoint each (f : string -> res value) (xs : list string) : res (list value) :=
    match xs with
    | [] => Ok []
    | x :: xs => do v <- f x; do vs <- each f xs; Ok (v :: vs)
    end.

  (** newVbModelState of sidetopic_uyv.py, line 887. *)
  Definition uyv_state (vals : list value) : res ntuple := make vals.
  (** Lines 342-345. *)
  Definition vecy_new (vals : list value) (sigY : value) : res ntuple :=
    do m <- uyv_state vals;
    do v1 <- each (attr m) ["K"; "Q"; "F"; "P"; "T"; "A"; "varA"; "Y"; "omY"];
    do v2 <- each (attr m) ["U"; "V"; "vocab"; "tau"; "sigma"];
    make (v1 ++ [sigY] ++ v2).

  (** Lines 297-305; eye is ssp.eye(modelState.P). *)
  Definition vecy_bound (eye : value) (rest : ntuple -> res value) (m : ntuple) : res value :=
    do v1 <- each (attr m) ["K"; "Q"; "F"; "P"; "T"; "A"; "varA"; "Y"; "P"];
    do v2 <- each (attr m) ["sigY"; "sigT"; "U"; "V"; "vocab"; "tau"; "sigma"];
    do m <- make (firstn 8 v1 ++ [eye] ++ v2);
    rest m.

  (** The names that train unpacks from the model, line 93. *)
  Definition unpacked : list string :=
    ["K"; "Q"; "F"; "P"; "T"; "A"; "varA"; "Y"; "omY"; "sigY"; "sigT"; "U"; "V"; "vocab"; "sigmaSq"; "alphaSq"; "kappaSq"; "tauSq"].
  (** The other names that are bound before the loop, lines 63 and 94-147, and by line 167. *)
  Definition others : list string :=
    ["modelState"; "X"; "W"; "plan"; "iterations"; "epsilon"; "logCount"; "plot"; "plotFile"; "plotIncremental"; "fastButInaccurate"; "mu0"; "multiStepSize";
     "logIter"; "elbos"; "likes"; "iters"; "lastVarBoundValue"; "docLen"; "D"; "XTX"; "I_P"; "I_Q"; "I_QP"; "I_F"; "T_QP"; "expLmda"; "nu"; "s"; "lxi"; "tsq"; "ssq";
     "overTsq"; "overSsq"; "overTsqSsq"; "tI_sXTX"; "omA"; "scaledWordCounts"; "iteration"; "VTV"; "UTU"; "sigy"].
  (** The names of the module: imports, lines 22-42, and functions. *)
  Definition module_names : list string :=
    ["log"; "e"; "np"; "la"; "ssp"; "rd"; "sys"; "safe_log"; "safe_log_one_plus_exp_of"; "normalizerows_ip"; "DTYPE"; "LOG_2PI"; "LOG_2PI_E"; "_quickPrintElbo";
     "VbSideTopicModelState"; "VbSideTopicQueryState"; "log_likelihood"; "plot_bound"; "query"; "negJakkola"; "deriveXi"; "sparseScalarProductOfDot"; "sparseScalarQuotientOfDot";
     "varBoundUyv"; "newVbModelStateUyv"; "vec"; "vec_transpose"; "vec_transpose_csr"; "sp_vec_trans_matrix"; "autojit"; "train"; "varBound"; "newVbModelState"].

  (** Lines 93-271.  [setup] stands for lines 94-147, [first] for lines 164-167 of the first
      iteration, [later] for what follows the first call of _quickPrintElbo, line 168, and
      [finish] for the plot, lines 266-267.  They give values to the names they bind. *)
  Definition vecy_train (iterations : nat) (setup first : res (list value)) (globals : list value) (later : list value -> res ntuple) (finish : res unit) (m : ntuple) : res ntuple :=
    do v1 <- each (attr m) fields;
    do v2 <- setup;
    let e := (combine unpacked v1 ++ combine others v2 ++ combine module_names globals)%list in
    match iterations with
    | 0 =>
        do _ <- finish;
        do vs <- each (name e) ["K"; "Q"; "F"; "P"; "T"; "A"; "omA"; "Y"; "omY"; "sigY"; "U"; "V"; "vocab"; "tau"; "sigma"];
        make vs
    | S _ =>
        do v3 <- first;
        let e := (combine unpacked v1 ++ combine others v3 ++ combine module_names globals)%list in
        do vs <- each (name e) ["iteration"; "X"; "W"; "K"; "Q"; "F"; "P"; "T"; "A"; "omA"; "Y"; "omY"; "sigY"; "sigT"; "U"; "V"; "vocab"; "tau"; "sigma"; "expLmda"; "nu"; "lxi"; "s"; "docLen"];
        later vs
    end.
End vecy.
