(** * Model of the training of the side topic model,
    /repo/sidetopics/model/stm_yv_bohning.py lines 167-345.

    Numbers are reals without rounding, the lengths of documents integers.
    np.argsort, scipy.linalg.inv and the least-squares solver of lines 221-224 are
    arguments; the decision to stop early may be anything.  R_A (lines 220-226), which
    nothing in the loop reads, logging and debugging output are left out, and so are
    corpora of a single document, whose length np.squeeze makes a number. *)
From Coq Require Import List Reals ZArith Arith Bool.
From Verif Require Import Base RealModel VbModel LinkModel CtmModel.
Import ListNotations.
Open Scope nat_scope.

(** np.unique(l, return_index=True), line 210: the values in order, and where each first
    occurs. *)
Fixpoint insert_unique (x : Z) (l : list Z) : list Z :=
  match l with
  | [] => [x]
  | y :: r => if (x <? y)%Z then x :: l else if (x =? y)%Z then l else y :: insert_unique x r
  end.
Definition unique (l : list Z) : list Z := fold_right insert_unique [] l.
Fixpoint first_index (x : Z) (l : list Z) : nat :=
  match l with [] => 0 | y :: r => if (x =? y)%Z then 0 else S (first_index x r) end.

Section stm.
  Variables K D T F P : nat.
  Variables beta fv lfv : R.           (* vocabPrior, fv, lfv *)
  Variables Y V : mat.
  Variable inv : mat -> mat.           (* la.inv *)
  Variable lsq : mat -> mat -> mat.    (* leastSquares, line 221: the transposed solution *)
  Variable argsort : list Z -> list nat.

  (** The variables of the loop that change; [t_R] is R. *)
  Record stm := { t_means : mat; t_exp : mat; t_varcs : mat; t_vocab : mat; t_R : mat; t_sigT : mat }.

  (** Lines 240-245. *)
  Definition stm_sigT (X A diffa means varcs : mat) : mat := fun i j =>
    let diffm := fun d k => (means d k - vsum F (fun f => X d f * A k f))%R in
    (1 / lfv * vsum P (fun p => Y i p * Y j p) + 1 / fv * vsum F (fun f => diffa i f * diffa j f)
     + vsum D (fun d => diffm d i * diffm d j) + (if i =? j then vsum D (fun d => varcs d i) else 0))%R.
  (** Lines 250-251. *)
  Definition sig_scale : R := (1 / (INR P + INR D + INR F))%R.
  Definition isig_scale : R := (1 / sig_scale)%R.
  (** Lines 258-260: the vocabulary update multiplies by whatever R holds. *)
  Definition stm_vocab (R e v : mat) : mat :=
    norm_rows T (fun k t => v k t * vsum D (fun d => R d t * e d k) + beta)%R.
  (** Lines 273-276. *)
  Definition stm_rhs (X A isigT S : mat) (n : vec) (means : mat) : mat := fun d k =>
    (vsum K (fun j => vsum F (fun f => X d f * A j f) * isigT j k) * isig_scale + S d k
     + n d * vsum K (fun j => means d j * bohning K j k) - n d * vsoftmax K (means d) k)%R.
  (** Lines 279-284: one block of rows for each length. *)
  Definition stm_block (isigT r : mat) (nd : Z) (start end_ : nat) (means : mat) : mat := fun d k =>
    if (start <=? d) && (d <? end_)
    then vsum K (fun j => r d j * (inv (fun i j => isigT i j + sig_scale * IZR nd * bohning K i j) j k * sig_scale))%R
    else means d k.
  Fixpoint stm_blocks (isigT r : mat) (lens : list Z) (inds : list nat) (means : mat) : mat :=
    match lens, inds with
    | nd :: lens, start :: (end_ :: _) as inds' => stm_blocks isigT r lens inds' (stm_block isigT r nd start end_ means)
    | _, _ => means
    end.

  (** The inner loop, lines 238-290, for sorted W, X and lengths. *)
  Definition stm_inner (W X : mat) (docLens : list Z) (A diffa : mat) (s : stm) : stm :=
    let n := fun d => IZR (nth d docLens 0%Z) in
    let sigT := stm_sigT X A diffa (t_means s) (t_varcs s) in
    let isigT := inv sigT in
    let vocab := stm_vocab (t_R s) (t_exp s) (t_vocab s) in
    let R := quotient K W (t_exp s) vocab in
    let S := token_weights K T W (t_exp s) vocab in
    let varcs := fun d k => (1 / (n d * (INR K - 1) / INR K + isig_scale * isigT k k))%R in
    let r := stm_rhs X A isigT S n (t_means s) in
    let lens := unique docLens in
    let inds := map (fun x => first_index x docLens) lens ++ [D] in
    let means := stm_blocks isigT r lens inds (fun d => vsoftmax K (t_means s d)) in
    {| t_means := means; t_exp := exp_means K means; t_varcs := varcs; t_vocab := vocab; t_R := R; t_sigT := sigT |}.

  (** Lines 234-335: [stop] is the decision of lines 318-335. *)
  Definition stm_outer (W X : mat) (docLens : list Z) (s : stm) : mat * stm :=
    let A := lsq X (t_means s) in
    let diffa := fun k f => (A k f - vsum P (fun p => Y k p * V p f))%R in
    (A, Nat.iter 10 (stm_inner W X docLens A diffa) s).
  Fixpoint stm_loop (stop : nat -> mat -> stm -> bool) (W X : mat) (docLens : list Z) (itr todo : nat) (A : mat) (s : stm) : mat * stm :=
    match todo with
    | 0 => (A, s)
    | S todo =>
      let '(A, s) := stm_outer W X docLens s in
      if stop itr A s then (A, s) else stm_loop stop W X docLens (S itr) todo A s
    end.

  Record stm_result := { r_A : mat; r_sigT : mat; r_vocab : mat; r_means : mat; r_exp : mat; r_varcs : mat; r_lens : list Z }.

  (** Lines 202-214 and 337-345.  The name sigScale is bound in the loop only. *)
  Definition rows {A} (idx : list nat) (m : nat -> A) : nat -> A := fun i => m (nth i idx 0).
  Definition stm_train (stop : nat -> mat -> stm -> bool) (iterations : nat) (W X : mat) (docLens : list Z)
             (A sigT vocab means expMeans varcs : mat) : res stm_result :=
    let sortIdx := argsort docLens in
    let W := rows sortIdx W in
    let X := rows sortIdx X in
    let sorted := map (fun i => nth i docLens 0%Z) sortIdx in
    let s := {| t_means := rows sortIdx means; t_exp := expMeans; t_varcs := rows sortIdx varcs; t_vocab := vocab;
                t_R := W; t_sigT := sigT |} in
    let '(A, s) := stm_loop stop W X sorted 0 iterations A s in
    if iterations =? 0 then Raise UnboundLocalError else
    let revert := argsort (map Z.of_nat sortIdx) in
    Ok {| r_A := A; r_sigT := fun i j => (t_sigT s i j * sig_scale)%R; r_vocab := t_vocab s;
          r_means := rows revert (t_means s); r_exp := t_exp s; r_varcs := rows revert (t_varcs s);
          r_lens := map (fun i => nth i sorted 0%Z) revert |}.
End stm.
