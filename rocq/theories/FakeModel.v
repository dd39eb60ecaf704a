(** * Model of the training and the queries of
    /repo/sidetopics/model/stm_yv_bohning_fake_online.py, lines 168-438 (the model named
    stm_yv_bohning_fake_online by run/__main__.py).

    Numbers are reals without rounding, with the infinities and NaN of IEEE arithmetic (no
    signed zeros, no overflow), because this training divides by zero.  Words and features
    are sparse matrices whose stored entries are the ones that are not zero; they hold
    finite numbers.  np.argsort and scipy.linalg.inv are arguments, the latter with the
    check for finite values that precedes it; the perplexity is any function of the
    state.  The variances fv and lfv are not zero.  What is printed, and corpora of a
    single document, whose length np.squeeze makes a number (line 141), are left out of
    the training. *)
From Coq Require Import List Reals ZArith Arith Bool.
From Verif Require Import Base RealModel VbModel LinkModel CtmModel StmModel.
Import ListNotations.
Open Scope nat_scope.

(** ** Numbers *)
Inductive xr := Fin (r : R) | PInf | NInf | NaN.
Definition xmat : Type := nat -> nat -> xr.

Definition xadd (x y : xr) : xr :=
  match x, y with
  | NaN, _ | _, NaN | PInf, NInf | NInf, PInf => NaN
  | PInf, _ | _, PInf => PInf
  | NInf, _ | _, NInf => NInf
  | Fin x, Fin y => Fin (x + y)
  end.
Definition xopp (x : xr) : xr := match x with Fin x => Fin (- x) | PInf => NInf | NInf => PInf | NaN => NaN end.
Definition xsub (x y : xr) : xr := xadd x (xopp y).
(** An infinity times a number. *)
Definition xsign (x : R) (inf : xr) : xr :=
  if Req_EM_T x 0 then NaN else if Rlt_dec 0 x then inf else xopp inf.
Definition xmul (x y : xr) : xr :=
  match x, y with
  | NaN, _ | _, NaN => NaN
  | Fin x, Fin y => Fin (x * y)
  | Fin x, inf | inf, Fin x => xsign x inf
  | PInf, PInf | NInf, NInf => PInf
  | PInf, NInf | NInf, PInf => NInf
  end.
Definition xdiv (x y : xr) : xr :=
  match x, y with
  | NaN, _ | _, NaN => NaN
  | Fin x, Fin y => if Req_EM_T y 0 then xsign x PInf else Fin (x / y)
  | Fin _, _ => Fin 0
  | inf, Fin y => if Rlt_dec y 0 then xopp inf else inf
  | _, _ => NaN
  end.
Definition xexp (x : xr) : xr := match x with Fin x => Fin (exp x) | PInf => PInf | NInf => Fin 0 | NaN => NaN end.
(** numpy's maximum, which is NaN if one of the numbers is. *)
Definition xmax2 (x y : xr) : xr :=
  match x, y with
  | NaN, _ | _, NaN => NaN
  | PInf, _ | _, PInf => PInf
  | NInf, y => y
  | x, NInf => x
  | Fin x, Fin y => Fin (Rmax x y)
  end.
Definition xlt (x y : xr) : bool :=
  match x, y with
  | NaN, _ | _, NaN => false
  | Fin x, Fin y => rltb x y
  | PInf, _ | _, NInf => false
  | _, _ => true
  end.
Definition xsum (n : nat) (v : nat -> xr) : xr := fold_right xadd (Fin 0) (map v (seq 0 n)).
Definition xmax (n : nat) (v : nat -> xr) : xr := match map v (seq 0 n) with [] => NaN | x :: r => fold_left xmax2 r x end.
(** A sparse row times a column: only what is stored is multiplied. *)
Definition sdot (n : nat) (row : vec) (v : nat -> xr) : xr :=
  xsum n (fun i => if Req_EM_T (row i) 0 then Fin 0 else v i).
Definition lift (m : mat) : xmat := fun i j => Fin (m i j).
Definition val (x : xr) : R := match x with Fin x => x | _ => 0%R end.
Definition is_fin (x : xr) : bool := match x with Fin _ => true | _ => false end.
Infix "⊕" := xadd (at level 50, left associativity).
Infix "⊖" := xsub (at level 50, left associativity).
Infix "⊗" := xmul (at level 40, left associativity).
Infix "⊘" := xdiv (at level 40, left associativity).

Section fake.
  Variables K D T F P B : nat.         (* B is BatchSize, line 168 *)
  Variables beta fv lfv : R.           (* vocabPrior, fv, lfv *)
  Variable inv_of : nat -> mat -> mat. (* la.inv of a matrix with this many rows *)
  Variable argsort : list Z -> list nat.

  (** scipy.linalg.inv refuses what is not finite. *)
  Definition xinv (m : nat) (M : xmat) : res xmat :=
    if forallb (fun i => forallb (fun j => is_fin (M i j)) (seq 0 m)) (seq 0 m)
    then Ok (lift (inv_of m (fun i j => val (M i j)))) else Raise ValueError.

  (** The variables of the loop that change. *)
  Record fake := { f_A : xmat; f_Y : xmat; f_RY : xmat; f_V : xmat; f_sigT : xmat; f_vocab : xmat; f_scale : xmat;
                   f_cov : xmat; f_means : xmat; f_exp : xmat; f_varcs : xmat }.

  (** Lines 225-229. *)
  Definition fake_RA (X : mat) : mat := inv_of F (fun i j => vsum D (fun d => X d i * X d j) + (if i =? j then 1 / fv else 0))%R.
  (** X.dot(A.T). *)
  Definition fake_mu (X : mat) (A : xmat) : xmat := fun d k => sdot F (X d) (fun f => Fin (X d f) ⊗ A k f).
  (** Lines 233-234 and, for one batch, 337-338. *)
  Definition fake_cov (m : nat) (means mu : xmat) : xmat := fun i j =>
    xsum m (fun d => (means d i ⊖ mu d i) ⊗ (means d j ⊖ mu d j)).

  (** Lines 249-253. *)
  Definition fake_sigT (s : fake) : xmat := fun i j =>
    let diffa := fun k f => f_A s k f ⊖ xsum P (fun p => f_Y s k p ⊗ f_V s p f) in
    (Fin (1 / lfv) ⊗ xsum P (fun p => f_Y s i p ⊗ f_Y s j p)) ⊕ (Fin (1 / fv) ⊗ xsum F (fun f => diffa i f ⊗ diffa j f))
    ⊕ f_cov s i j ⊕ (if i =? j then xsum D (fun d => f_varcs s d i) else Fin 0).
  (** Lines 265-267; normalizerows_ip is array_utils.py lines 12-18. *)
  Definition fake_vocab (s : fake) : xmat := fun k t =>
    ((f_vocab s k t ⊗ f_scale s k t) ⊕ Fin beta) ⊘ xsum T (fun u => (f_vocab s k u ⊗ f_scale s k u) ⊕ Fin beta).
  (** The argument of la.inv in line 271, and what the inverse is multiplied by. *)
  Definition fake_lV (isigT : xmat) (s : fake) : xmat := fun p q =>
    (Fin (sig_scale D F P) ⊗ f_RY s p q) ⊕ xsum K (fun j => xsum K (fun k => f_Y s k p ⊗ isigT k j) ⊗ f_Y s j q).
  Definition fake_rV (isigT : xmat) (s : fake) : xmat := fun p f =>
    xsum K (fun j => xsum K (fun k => f_Y s k p ⊗ isigT k j) ⊗ f_A s j f).
  (** Line 280. *)
  Definition fake_lY (V : xmat) : xmat := fun p q =>
    Fin (if p =? q then 1 / lfv else 0) ⊕ (Fin (1 / fv) ⊗ xsum F (fun f => V p f ⊗ V q f)).
  (** Line 284. *)
  Definition fake_Y (A V RY : xmat) : xmat := fun k p =>
    Fin (1 / fv) ⊗ xsum P (fun q => xsum F (fun f => A k f ⊗ V q f) ⊗ RY q p).
  (** Line 288. *)
  Definition fake_A (X : mat) (Y V means : xmat) : xmat := fun k f =>
    xsum F (fun g => ((Fin (1 / fv) ⊗ xsum P (fun p => Y k p ⊗ V p g)) ⊕ sdot D (fun d => X d g) (fun d => Fin (X d g) ⊗ means d k))
                     ⊗ Fin (fake_RA X g f)).
  (** Line 292. *)
  Definition fake_varcs (n : vec) (isigT : xmat) : xmat := fun d k =>
    Fin 1 ⊘ (Fin (n d * (INR K - 1) / INR K) ⊕ (Fin (isig_scale D F P) ⊗ isigT k k)).

  (** Lines 298-338: what the batches of one iteration change. *)
  Record batch_vars := { v_means : xmat; v_exp : xmat; v_scale : xmat; v_cov : xmat }.
  (** Lines 307 and 322: rows from [d] on of the exponents of the means, stored in the first [span] rows. *)
  Definition put_exp (d span : nat) (means e : xmat) : xmat := fun i k =>
    if i <? span then xexp (means (d + i) k ⊖ xmax K (means (d + i))) else e i k.
  (** sparseScalarQuotientOfDot, lines 308 and 323, for one row of the words and row [r] of
      the weights. *)
  Definition fake_quot (W : mat) (e vocab : xmat) (row r : nat) : nat -> xr := fun t =>
    Fin (W row t) ⊘ xsum K (fun k => e r k ⊗ vocab k t).
  Definition has_words (W : mat) (d : nat) : bool := existsb (fun t => negb (if Req_EM_T (W d t) 0 then true else false)) (seq 0 T).
  (** One batch, lines 305-338; [l] is the inverse of line 301.  Line 308 takes the rows [d : end_d] of the weights, though
      those of the batch are in the first rows; compiled code reads what would be behind the
      last row of the buffer without looking at its size. *)
  Definition fake_batch (W X : mat) (n : vec) (A isigT vocab : xmat) (l : xmat) (d end_d : nat) (v : batch_vars) : res batch_vars :=
    let span := end_d - d in
    let e := put_exp d span (v_means v) (v_exp v) in
    if existsb (fun r => (B <=? r) && has_words W r) (seq d span) then Raise MemoryOOB else
    let quot := fun i => fake_quot W e vocab (d + i) (d + i) in
    let S := fun i k => e i k ⊗ sdot T (W (d + i)) (fun t => quot i t ⊗ vocab k t) in
    let soft := fun i k => if i <? span then e i k ⊘ xsum K (e i) else e i k in
    let mu := fake_mu (fun i => X (d + i)) A in
    let rhs := fun i k => (xsum K (fun j => mu i j ⊗ isigT j k) ⊗ Fin (isig_scale D F P)) ⊕ S i k
                          ⊕ (Fin (n (d + i)) ⊗ xsum K (fun j => v_means v (d + i) j ⊗ Fin (bohning K j k)))
                          ⊖ (Fin (n (d + i)) ⊗ soft i k) in
    let means := fun r k => if (d <=? r) && (r <? end_d)
                            then xsum K (fun j => rhs (r - d) j ⊗ (l j k ⊗ Fin (sig_scale D F P))) else v_means v r k in
    let e := put_exp d span means soft in
    let quot := fun i => fake_quot W e vocab (d + i) i in
    Ok {| v_means := means; v_exp := e;
          v_scale := fun k t => v_scale v k t ⊕ sdot span (fun i => W (d + i) t) (fun i => quot i t ⊗ e i k);
          v_cov := fun i j => v_cov v i j ⊕ fake_cov span (fun r => means (d + r)) mu i j |}.
  (** Lines 303-304: range(start, end, BatchSize), and the ends. *)
  Definition batches (start end_ : nat) : list (nat * nat) :=
    map (fun i => (start + i * B, Nat.min (start + i * B + B) end_)) (seq 0 ((end_ - start + B - 1) / B)).
  Fixpoint fake_batches (W X : mat) (n : vec) (A isigT vocab : xmat) (l : xmat) (todo : list (nat * nat)) (v : batch_vars) : res batch_vars :=
    match todo with
    | [] => Ok v
    | (d, end_d) :: todo =>
      do v <- fake_batch W X n A isigT vocab l d end_d v;
      fake_batches W X n A isigT vocab l todo v
    end.
  (** Lines 298-301. *)
  Fixpoint fake_groups (W X : mat) (n : vec) (A isigT vocab : xmat) (lens : list Z) (inds : list nat) (v : batch_vars) : res batch_vars :=
    match lens, inds with
    | nd :: lens, start :: (end_ :: _) as inds' =>
      do l <- xinv K (fun i j => isigT i j ⊕ Fin (sig_scale D F P * IZR nd * bohning K i j));
      do v <- fake_batches W X n A isigT vocab l (batches start end_) v;
      fake_groups W X n A isigT vocab lens inds' v
    | _, _ => Ok v
    end.

  (** One turn of the loop, lines 248-338, for sorted words, features and lengths. *)
  Definition fake_iter (W X : mat) (docLens : list Z) (s : fake) : res fake :=
    let n := fun d => IZR (nth d docLens 0%Z) in
    let sigT := fake_sigT s in
    do isigT <- xinv K sigT;
    let vocab := fake_vocab s in
    do iV <- xinv P (fake_lV isigT s);
    let V := fun p f => xsum P (fun q => iV p q ⊗ fake_rV isigT s q f) in
    do RY <- xinv P (fake_lY V);
    let Y := fake_Y (f_A s) V RY in
    let A := fake_A X Y V (f_means s) in
    let varcs := fake_varcs n isigT in
    let lens := unique docLens in
    let inds := map (fun x => first_index x docLens) lens ++ [D] in
    do v <- fake_groups W X n A isigT vocab lens inds
              {| v_means := f_means s; v_exp := f_exp s; v_scale := fun _ _ => Fin 0; v_cov := fun _ _ => Fin 0 |};
    Ok {| f_A := A; f_Y := Y; f_RY := RY; f_V := V; f_sigT := sigT; f_vocab := vocab; f_scale := v_scale v; f_cov := v_cov v;
          f_means := v_means v; f_exp := v_exp v; f_varcs := varcs |}.

  (** Lines 243-362.  [size] is the length of the arrays that hold the measurements; the
      number beside the state is that of the measurements kept if training stopped
      early. *)
  Fixpoint fake_loop (perp : fake -> xr) (W X : mat) (docLens : list Z) (size logFrequency itr todo idx : nat) (last : xr) (s : fake)
    : res (fake * option nat) :=
    match todo with
    | 0 => Ok (s, None)
    | S todo =>
      do s <- fake_iter W X docLens s;
      if itr mod logFrequency =? 0 then
        if size <=? idx then Raise IndexError else
        if (1 <? idx) && (20 <? itr) && xlt (last ⊖ perp s) (Fin 1) then Ok (s, Some idx)
        else fake_loop perp W X docLens size logFrequency (S itr) todo (S idx) (perp s) s
      else fake_loop perp W X docLens size logFrequency (S itr) todo idx last s
    end.

  Record fake_result := {
    r_model : fake;                   (* A R_Y Y V vocab, and sigT times sigScale *)
    rf_means : xmat; rf_varcs : xmat; (* of the documents in the order of the caller *)
    rf_exp : xmat; rf_exp_rows : nat; (* expMeans and the number of its rows *)
    rf_lens : list Z;
    rf_iters : nat; rf_values : nat; rf_likes : nat (* lengths of the arrays of measurements *) }.

  (** The whole function, lines 189-372.  Line 236 makes a buffer of B rows of zeros;
      vocabScale starts as ones (line 239).  The name sigScale is bound in the loop
      only.  Line 360 gives the shortened array of likelihoods another name. *)
  Definition fake_train (perp : fake -> xr) (logFrequency iterations : nat) (W X : mat) (docLens : list Z) (A Y RY V vocab means varcs : xmat)
    : res fake_result :=
    if logFrequency =? 0 then Raise ZeroDivisionError else
    let sortIdx := argsort docLens in
    let W := rows sortIdx W in
    let X := rows sortIdx X in
    let sorted := map (fun i => nth i docLens 0%Z) sortIdx in
    let means := rows sortIdx means in
    let s := {| f_A := A; f_Y := Y; f_RY := RY; f_V := V; f_sigT := fun _ _ => Fin 0; f_vocab := vocab; f_scale := fun _ _ => Fin 1;
                f_cov := fake_cov D means (fake_mu X A); f_means := means; f_exp := fun _ _ => Fin 0; f_varcs := rows sortIdx varcs |} in
    let size := iterations / logFrequency in
    do r <- fake_loop perp W X sorted size logFrequency 0 iterations 0 (Fin 0) s;
    if iterations =? 0 then Raise UnboundLocalError else
    let '(s, kept) := r in
    let revert := argsort (map Z.of_nat sortIdx) in
    let size' := match kept with Some idx => idx | None => size end in
    Ok {| r_model := {| f_A := f_A s; f_Y := f_Y s; f_RY := f_RY s; f_V := f_V s; f_sigT := fun i j => f_sigT s i j ⊗ Fin (sig_scale D F P);
                        f_vocab := f_vocab s; f_scale := f_scale s; f_cov := f_cov s; f_means := f_means s; f_exp := f_exp s; f_varcs := f_varcs s |};
          rf_means := rows revert (f_means s); rf_varcs := rows revert (f_varcs s); rf_exp := f_exp s; rf_exp_rows := B;
          rf_lens := map (fun i => nth i sorted 0%Z) revert; rf_iters := size'; rf_values := size'; rf_likes := size |}.
End fake.

(** ** query, lines 390-438, for finite states: as that of stm_yv_bohning.py (CtmModel.v) but
    for exactly the iterations asked for, with the variances written in each of them.
    np.exp (line 408) writes into the array expMeans of the caller, which must have as many
    rows as there are documents; line 413 cannot index the length of a single document. *)
Definition fake_query (K D T : nat) (W : mat) (n : vec) (inv : mat -> mat) (perp : mat -> R) (lastPerp : R) (iterations F : nat) (X A sigT vocab : mat)
           (exp_rows : nat) (q : qarrays) : res qarrays :=
  let isigT := inv sigT in
  if iterations =? 0 then Ok q else
  if D =? 1 then Raise IndexError else
  if negb (exp_rows =? D) then Raise ValueError else
  let varcs := fun d k => (1 / (n d * (INR K - 1) / INR K + isigT k k))%R in
  let r := s_arrays (query_loop K T W n inv false perp isigT vocab (stm_prior K isigT (stm_mean F X A)) varcs 0 iterations
                                lastPerp {| s_arrays := q; s_same := true; s_means := q_means q |}) in
  Ok {| q_means := q_means r; q_exp := q_exp r; q_varcs := varcs |}.
