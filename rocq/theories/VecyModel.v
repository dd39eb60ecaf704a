(** * Model of the side topic model of /repo/sidetopics/model/stm_uv_vecy_bohning.py,
    train (lines 166-357) and query (lines 359-423).

    Numbers are reals without rounding, the lengths of documents integers.  np.argsort and
    scipy.linalg.inv are arguments, the latter with the size of the matrix; the measurement
    of lines 328-347, which may stop training or raise (EarlyModel.v, log_loop), is an
    argument too.  Debugging output is left out, and so are corpora of a single document
    in training, whose length np.squeeze makes a number. *)
From Coq Require Import List Reals ZArith Arith Bool.
From Verif Require Import Base RealModel VbModel LinkModel CtmModel StmModel.
Import ListNotations.
Open Scope nat_scope.

Section vecy.
  Variables K D T F P : nat.
  Variables beta fv lfv : R.                (* vocabPrior, fv, lfv *)
  Variable inv : nat -> mat -> mat.         (* la.inv of a matrix of that size *)
  Variable argsort : list Z -> list nat.

  (** The variables of the loop; [y_A], [y_Y], [y_V], [y_RY] are A, Y, V and R_Y. *)
  Record vecy := { y_means : mat; y_exp : mat; y_varcs : mat; y_vocab : mat; y_sigT : mat;
                   y_A : mat; y_Y : mat; y_V : mat; y_RY : mat }.

  (** Lines 222-226: la.inv(X.T.dot(X) + 1./fv on the diagonal). *)
  Definition feat_cov (X : mat) : mat := inv F (fun f g => vsum D (fun d => X d f * X d g) + (if f =? g then 1 / fv else 0))%R.
  (** Line 276. *)
  Definition new_V (isigT A Y RY : mat) : mat := fun p f =>
    vsum P (fun q => inv P (fun p q => sig_scale D F P * RY p q + vsum K (fun i => vsum K (fun j => Y i p * isigT i j * Y j q))) p q
                     * vsum K (fun i => vsum K (fun j => Y i q * isigT i j * A j f)))%R.
  (** Lines 285-286; aI_P is line 219. *)
  Definition new_RY (V : mat) : mat := inv P (fun p q => (if p =? q then 1 / lfv else 0) + 1 / fv * vsum F (fun f => V p f * V q f))%R.
  (** Line 289. *)
  Definition new_Y (A V RY : mat) : mat := fun k p => vsum P (fun q => 1 / fv * vsum F (fun f => A k f * V q f) * RY q p)%R.
  (** Line 293. *)
  Definition new_A (X means Y V RA : mat) : mat := fun k f =>
    vsum F (fun g => (1 / fv * vsum P (fun p => Y k p * V p g) + vsum D (fun d => X d g * means d k)) * RA g f)%R.

  (** What an iteration computes before the means, lines 240-293. *)
  Definition vecy_maps (X RA : mat) (s : vecy) : mat * mat * mat * mat * mat :=
    let diffa := fun k f => (y_A s k f - vsum P (fun p => y_Y s k p * y_V s p f))%R in
    let sigT := stm_sigT D F P fv lfv (y_Y s) X (y_A s) diffa (y_means s) (y_varcs s) in
    let V := new_V (inv K sigT) (y_A s) (y_Y s) (y_RY s) in
    let RY := new_RY V in
    let Y := new_Y (y_A s) V RY in
    (sigT, V, RY, Y, new_A X (y_means s) Y V RA).

  (** One iteration, lines 234-325, for sorted W, X and lengths. *)
  Definition vecy_iter (W X RA : mat) (docLens : list Z) (s : vecy) : vecy :=
    let n := fun d => IZR (nth d docLens 0%Z) in
    let '(sigT, V, RY, Y, A) := vecy_maps X RA s in
    let isigT := inv K sigT in
    let e := exp_means K (y_means s) in
    let vocab := vocab_update K D T W beta e (y_vocab s) in
    let S := token_weights K T W e vocab in
    let varcs := fun d k => (1 / (n d * (INR K - 1) / INR K + isig_scale D F P * isigT k k))%R in
    let r := stm_rhs K D F P X A isigT S n (y_means s) in
    let lens := unique docLens in
    let inds := map (fun x => first_index x docLens) lens ++ [D] in
    let means := stm_blocks K D F P (inv K) isigT r lens inds (fun d => vsoftmax K (y_means s d)) in
    {| y_means := means; y_exp := e; y_varcs := varcs; y_vocab := vocab; y_sigT := sigT; y_A := A; y_Y := Y; y_V := V; y_RY := RY |}.

  (** Lines 328-347.  [logged] says whether it is time for a measurement, which is what
      [measure] does, given the words and the features; var_bound writes into expMeans (line 501). *)
  Definition measured (s : vecy) : vecy :=
    {| y_means := y_means s; y_exp := exp_means K (y_means s); y_varcs := y_varcs s; y_vocab := y_vocab s; y_sigT := y_sigT s;
       y_A := y_A s; y_Y := y_Y s; y_V := y_V s; y_RY := y_RY s |}.
  Fixpoint vecy_loop (logged : nat -> bool) (measure : mat -> mat -> nat -> vecy -> res bool) (W X RA : mat) (docLens : list Z)
           (itr todo : nat) (s : vecy) : res vecy :=
    match todo with
    | 0 => Ok s
    | S todo =>
      let s := vecy_iter W X RA docLens s in
      if logged itr then
        let s := measured s in
        do stop <- measure W X itr s;
        if stop : bool then Ok s else vecy_loop logged measure W X RA docLens (S itr) todo s
      else vecy_loop logged measure W X RA docLens (S itr) todo s
    end.

  Record vecy_result := { o_A : mat; o_Y : mat; o_V : mat; o_RY : mat; o_RA : mat; o_sigT : mat; o_vocab : mat;
                          o_means : mat; o_exp : mat; o_varcs : mat; o_lens : list Z }.

  (** Lines 204-226 and 349-357.  Dense arrays have no method todense (line 224); the name
      sigScale is bound in the loop only. *)
  Definition vecy_train (sparse : bool) (logged : nat -> bool) (measure : mat -> mat -> nat -> vecy -> res bool) (iterations : nat)
             (W X : mat) (docLens : list Z) (s : vecy) : res vecy_result :=
    let sortIdx := argsort docLens in
    let W := rows sortIdx W in
    let X := rows sortIdx X in
    let sorted := map (fun i => nth i docLens 0%Z) sortIdx in
    if negb sparse then Raise AttributeError else
    let RA := feat_cov X in
    do s <- vecy_loop logged measure W X RA sorted 0 iterations
      {| y_means := rows sortIdx (y_means s); y_exp := y_exp s; y_varcs := rows sortIdx (y_varcs s); y_vocab := y_vocab s;
         y_sigT := y_sigT s; y_A := y_A s; y_Y := y_Y s; y_V := y_V s; y_RY := y_RY s |};
    if iterations =? 0 then Raise UnboundLocalError else
    let revert := argsort (map Z.of_nat sortIdx) in
    Ok {| o_A := y_A s; o_Y := y_Y s; o_V := y_V s; o_RY := y_RY s; o_RA := RA;
          o_sigT := fun i j => (y_sigT s i j * sig_scale D F P)%R; o_vocab := y_vocab s;
          o_means := rows revert (y_means s); o_exp := y_exp s; o_varcs := rows revert (y_varcs s);
          o_lens := map (fun i => nth i sorted 0%Z) revert |}.

  (** query, lines 380-423: as in stm_yv_bohning.py (CtmModel.v, stm_query), but without a
      least number of iterations, and the variances are written in the loop. *)
  Definition vecy_query (W : mat) (n : vec) (perp : mat -> R) (lastPerp : R) (iterations : nat) (X A sigT vocab : mat) (q : qarrays) : res qarrays :=
    let isigT := inv K sigT in
    if iterations =? 0 then Ok q else
    if D =? 1 then Raise IndexError else
    let varcs := fun d k => (1 / (n d * (INR K - 1) / INR K + isigT k k))%R in
    let r := s_arrays (query_loop K T W n (inv K) false perp isigT vocab (stm_prior K isigT (stm_mean F X A)) varcs 0 iterations lastPerp
                                  {| s_arrays := q; s_same := true; s_means := q_means q |}) in
    Ok {| q_means := q_means r; q_exp := q_exp r; q_varcs := varcs |}.
End vecy.
