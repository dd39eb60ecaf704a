(** * Model of the CVB0 and CVB trainers for LDA.

    Arithmetic is exact (rationals), where the code uses 32- or 64-bit floats.
    Arrays indexed by document, position, topic and word are total functions;
    the loops only touch indices inside the array shapes.  A division by zero
    (which gives an infinity or NaN in the C code) makes the outcome of the
    token update the value of an arbitrary function [special], over which every
    theorem quantifies. *)
From Coq Require Import List ZArith QArith Arith Bool Lia.
From Verif Require Import Base EvalSpec.
Import ListNotations.
Open Scope nat_scope.

(** ** Token lists *)

(** lda_cvb_fast.pyx 88-98 (and 160-170, 232-242): for each stored element of
    the row, [observationCount] copies of its column.  A row is the list of its
    stored (column, count) pairs in storage order. *)
Definition expand_row (row : list (nat * Z)) : list nat :=
  flat_map (fun e => repeat (fst e) (Z.to_nat (snd e))) row.

(** The swap of two entries of a row, lda_cvb_fast.pyx 105-110. *)
Definition swap (l : list nat) (i j : nat) : list nat :=
  map (fun p => let p' := if p =? i then j else if p =? j then i else p in nth p' l 0)
      (seq 0 (length l)).

(** [toWordList], lda_cvb0.py 164-173 and lda_cvb_fast.pyx 48-113: [docLens] are
    the row sums cast to int32 (as a list of Z), the result is a zero matrix of
    width [maxN = max docLens], the tokens are written from position 0 on
    without a bounds check, and then the first [nd] entries are swapped [nd]
    times at positions [rand() % nd].  [r d n] is the pair of random numbers
    used at step [n] of document [d].
    Writing past the end of row [d] is undefined behaviour, reported as
    [MemoryOOB] although in the C code a write past one row can land in the
    next.  Float matrices are covered through [cast], the C conversion of a
    stored value to int; for the int32 version it is the identity. *)
Definition write_row (maxN : nat) (toks : list nat) : res (list nat) :=
  if length toks <=? maxN then Ok (toks ++ repeat 0 (maxN - length toks)) else Raise MemoryOOB.
Definition shuffle_row (nd : nat) (r : nat -> nat * nat) (row : list nat) : list nat :=
  fold_left (fun l n => let (a, b) := r n in swap l (a mod nd) (b mod nd)) (seq 0 nd) row.
Definition to_word_list (rows : list (list (nat * Z))) (r : nat -> nat -> nat * nat)
  : res (list (list nat) * list Z) :=
  let docLens := map (fun row => sumZ (map snd row)) rows in
  match docLens with
  | [] => Raise ValueError                     (* np.max of an empty array *)
  | l0 :: ls =>
      let maxN := Z.to_nat (fold_left Z.max ls l0) in
      do W <- mapM (fun row => write_row maxN (expand_row row)) rows;
      Ok (map (fun de => shuffle_row (Z.to_nat (fst (snd de))) (r (fst de)) (snd (snd de)))
              (combine (seq 0 (length rows)) (combine docLens W)), docLens)
  end.

(** lda_gibbs_fast.pyx 293-333 [flatten]: one list for the whole matrix, not
    shuffled; words are stored as uint16. [T] is the number of columns. *)
Definition u16 : nat := 2 ^ 16.
Definition flatten_rows (T : nat) (rows : list (list (nat * Z))) : res (list nat * list Z) :=
  if u16 <? T then Raise ValueError else
  let docLens := map (fun row => sumZ (map snd row)) rows in
  let toks := flat_map expand_row rows in
  if (sumZ docLens <? 0)%Z then Raise ValueError       (* negative array size *)
  else if length toks <=? Z.to_nat (sumZ docLens)
  then Ok (map (fun t => t mod u16) toks
           ++ repeat 0 (Z.to_nat (sumZ docLens) - length toks), docLens)
  else Raise MemoryOOB.

(** ** The schedule of iterations *)

(** lda_cvb0.py 232-286, lda_cvb.py 243-306: the sizes of the successive calls
    to [do_iterations]; [stop j] is the outcome of the convergence test after
    segment [j] (it depends on floating point likelihoods).  Python's [//] is
    [Z.div] (floor); iteration counts are any integers. *)
Definition log_points (iterations logFrequency : Z) : Z :=
  if (logFrequency =? 0)%Z then 1%Z else (iterations / logFrequency)%Z.
Definition remainder_iters (iterations logFrequency : Z) : Z :=
  (iterations - logFrequency * (log_points iterations logFrequency - 1))%Z.

(** State of the loop: the calls made so far, the logged iteration numbers and
    whether it has converged.  [minIt] is 50 for CVB0 (line 272) and 30 for CVB. *)
Record sched := mkSched { calls : list Z; bound_iters : list Z; finished : bool }.
Definition seg_step (minIt logFrequency : Z) (stop : nat -> bool) (s : sched) (segment : nat) : sched :=
  if finished s then s else
  let its := bound_iters s ++ [(Z.of_nat segment * logFrequency)%Z] in
  mkSched (calls s ++ [logFrequency]) its
    ((2 <? Z.of_nat (length its))%Z && (minIt <? last its 0)%Z && stop segment).
Definition schedule (minIt iterations logFrequency : Z) (stop : nat -> bool) : sched :=
  let lp := log_points iterations logFrequency in
  let s := fold_left (seg_step minIt logFrequency stop) (seq 0 (Z.to_nat (lp - 1)))
             (mkSched [] [] false) in
  if finished s then s
  else mkSched (calls s ++ [remainder_iters iterations logFrequency])
               (bound_iters s ++ [(iterations - 1)%Z]) false.
(** Iterations carried out by a call [do_iterations(n)]: [range(n)] of a
    negative number is empty. *)
Definition executed (s : sched) : Z := sumZ (map (Z.max 0) (calls s)).

(** lda_vb.py 182-250 and lda_svb.py 192-256 [train] use the same segments.
    [compiled.iterate_f32] takes 11 arguments (lda_vb_fast.pyx 61);
    [compiled.iterate_f64] is defined twice, and the second definition (line
    456), which takes 15, is the one in force.  lda_vb.py passes 11 arguments in
    both calls, lda_svb.py 15 in the loop and 11 in the final call.  The log
    arrays have [logPoints] cells: a negative count makes [np.zeros] raise
    ValueError, and with [logPoints = 0] the final store raises IndexError
    (after the iterations have run).  [stop j] is the outcome of [converged]
    after segment [j].  The result is the number of iterations carried out. *)
Definition iterate_arity (double : bool) : nat := if double then 15 else 11.
Fixpoint vb_loop (call_ok : bool) (segIters : Z) (stop : nat -> bool) (segs : list nat) (n : Z) : res (Z * bool) :=
  match segs with
  | [] => Ok (n, false)
  | j :: segs =>
      if negb call_ok then Raise TypeError
      else if stop j then Ok ((n + Z.max 0 segIters)%Z, true)
      else vb_loop call_ok segIters stop segs (n + Z.max 0 segIters)%Z
  end.
Definition vb_schedule (stochastic double : bool) (iterations logFrequency : Z) (stop : nat -> bool) : res Z :=
  let lp := log_points iterations logFrequency in
  if (lp <? 0)%Z then Raise ValueError else
  do r <- vb_loop ((if stochastic then 15 else 11) =? iterate_arity double) logFrequency stop (seq 0 (Z.to_nat (lp - 1))) 0;
  if snd r then Ok (fst r)
  else if negb (11 =? iterate_arity double) then Raise TypeError
  else if (lp =? 0)%Z then Raise IndexError
  else Ok (fst r + Z.max 0 (remainder_iters iterations logFrequency))%Z.

(** ** Counts and responsibilities *)

(** [words d n] is W_list[d,n], [doclen d] is docLens[d]. *)
Record corpus := mkCorpus { ndocs : nat; words : nat -> nat -> nat; doclen : nat -> nat }.

Record qst := mkQ { q_dk : nat -> nat -> Q; q_kt : nat -> nat -> Q; q_k : nat -> Q;
                    q_z : nat -> nat -> nat -> Q }.

Definition upd1 {A} (f : nat -> A) (i : nat) (v : A) : nat -> A :=
  fun j => if j =? i then v else f j.
Definition upd2 {A} (f : nat -> nat -> A) (i j : nat) (v : A) : nat -> nat -> A :=
  upd1 f i (upd1 (f i) j v).
Definition upd3 {A} (f : nat -> nat -> nat -> A) (i j k : nat) (v : A) : nat -> nat -> nat -> A :=
  upd1 f i (upd2 (f i) j k v).

(** lda_cvb0_fast.pyx 322-370 [calculateCounts_f64] (same for f32, 262-320):
    zero the responsibilities beyond each document's length, sum them over all
    [maxN] positions, and accumulate word counts in a loop over topics,
    documents and positions. *)
Definition zero_tail (c : corpus) (z : nat -> nat -> nat -> Q) : nat -> nat -> nat -> Q :=
  fun d n k => if n <? doclen c d then z d n k else 0%Q.
Definition count_words (c : corpus) (K : nat) (z : nat -> nat -> nat -> Q) : nat -> nat -> Q :=
  fold_left (fun kt k =>
    fold_left (fun kt d =>
      fold_left (fun kt n => let t := words c d n in upd2 kt k t (kt k t + z d n k)%Q)
        (seq 0 (doclen c d)) kt)
      (seq 0 (ndocs c)) kt)
    (seq 0 K) (fun _ _ => 0%Q).
Definition calculate_counts (c : corpus) (maxN K : nat) (z : nat -> nat -> nat -> Q) : qst :=
  let z := zero_tail c z in
  let dk := fun d k => qsum (fun n => z d n k) (seq 0 maxN) in
  mkQ dk (count_words c K z) (fun k => qsum (fun d => dk d k) (seq 0 (ndocs c))) z.

(** ** CVB0 sweeps: lda_cvb0_fast.pyx 457-560 [iterate_f64] (and 372-455) *)
Section Cvb0.
  Context (c : corpus) (K T : nat) (topicPrior vocabPrior : Q)
          (special : qst -> nat -> nat -> nat -> option Q).

  (** The unnormalised weight of topic [k] for token [n] of [d] (lines 518-522);
      [None] when the divisor is zero. *)
  Definition raw (s : qst) (d n k : nat) : option Q :=
    let t := words c d n in
    let z := q_z s d n k in
    let den := (qnat T * vocabPrior + q_k s k - z)%Q in
    if Qeq_bool den 0 then None
    else Some ((topicPrior + q_dk s d k - z) * (vocabPrior + q_kt s k t - z) / den)%Q.

  Fixpoint all_some {A} (l : list (option A)) : option (list A) :=
    match l with
    | [] => Some []
    | Some a :: r => match all_some r with Some s => Some (a :: s) | None => None end
    | None :: _ => None
    end.

  (** [mems[k] / denom]; [None] stands for NaN or an infinity. *)
  Definition mems (s : qst) (d n : nat) : nat -> option Q :=
    match all_some (map (raw s d n) (seq 0 K)) with
    | Some l =>
        let denom := qsum (fun x => x) l in
        if Qeq_bool denom 0 then special s d n
        else fun k => option_map (fun m => m / denom)%Q (nth_error l k)
    | None => special s d n
    end.

  (** is_invalid_prob_f64, lines 571-579. *)
  Definition valid_prob (p : option Q) : option Q :=
    match p with
    | Some q => if Qle_bool (-1#10) q && Qle_bool q (11#10) then Some q else None
    | None => None
    end.

  (** The second loop over topics, lines 526-541.  The flag is false once the
      function has returned on an invalid probability. *)
  Definition topic_step (m : nat -> option Q) (d n : nat) (sb : qst * bool) (k : nat) : qst * bool :=
    if snd sb then
      match valid_prob (m k) with
      | None => (fst sb, false)
      | Some p =>
          let s := fst sb in
          let t := words c d n in
          let diff := (p - q_z s d n k)%Q in
          (mkQ (upd2 (q_dk s) d k (q_dk s d k + diff)%Q)
               (upd2 (q_kt s) k t (q_kt s k t + diff)%Q)
               (upd1 (q_k s) k (q_k s k + diff)%Q)
               (upd3 (q_z s) d n k p), true)
      end
    else sb.

  Definition token_step (sb : qst * bool) (dn : nat * nat) : qst * bool :=
    if snd sb then
      fold_left (topic_step (mems (fst sb) (fst dn) (snd dn)) (fst dn) (snd dn)) (seq 0 K) sb
    else sb.

  (** All tokens in the order of the loops over [d] and [n]. *)
  Definition tokens : list (nat * nat) :=
    flat_map (fun d => map (fun n => (d, n)) (seq 0 (doclen c d))) (seq 0 (ndocs c)).

  Definition sweep (sb : qst * bool) : qst * bool := fold_left token_step tokens sb.

  (** [iterate iterations]: a new call starts afresh, so the flag is reset. *)
  Definition iterate (iterations : nat) (s : qst) : qst * bool :=
    Nat.iter iterations sweep (s, true).

  (** ** Measuring: lda_cvb0.py 355-392 [log_likelihood_point]

      The count arrays are turned into distributions in place and back.  The
      sums run over the [K] topics and the [T] words. *)
  Definition round_trip (x prior norm : Q) : Q := ((x + prior) / norm * norm - prior)%Q.
  Definition measure (a : nat -> Q) (b : Q) (s : qst) : qst :=
    let doc_norm := fun d => qsum (fun k => q_dk s d k + a k)%Q (seq 0 K) in
    let voc_norm := fun k => qsum (fun t => q_kt s k t + b)%Q (seq 0 T) in
    mkQ (fun d k => round_trip (q_dk s d k) (a k) (doc_norm d))
        (fun k t => round_trip (q_kt s k t) b (voc_norm k)) (q_k s) (q_z s).

  (** ** Training: lda_cvb0.py 192-307 *)

  (** The trained part of a ModelState: None before the first training run. *)
  Record mst := mkM { m_docs : nat; m_dk : nat -> nat -> Q; m_kt : nat -> nat -> Q; m_k : nat -> Q }.

  Definition add_model (m : option mst) (s : qst) : qst :=
    match m with
    | None => s
    | Some m => mkQ (q_dk s) (fun k t => q_kt s k t + m_kt m k t)%Q (fun k => q_k s k + m_k m k)%Q (q_z s)
    end.
  Definition sub_model (m : option mst) (s : qst) : qst :=
    match m with
    | None => s
    | Some m => mkQ (q_dk s) (fun k t => q_kt s k t - m_kt m k t)%Q (fun k => q_k s k - m_k m k)%Q (q_z s)
    end.
  (** np.vstack((m_n_dk, q_n_dk)). *)
  Definition vstack (D0 : nat) (a b : nat -> nat -> Q) : nat -> nat -> Q :=
    fun d k => if d <? D0 then a d k else b (d - D0) k.

  (** The calls of [schedule], each followed by a measurement.  The priors
      used by the measurement are those of the model. *)
  Definition run_calls (a : nat -> Q) (cs : list Z) (s : qst) : qst :=
    fold_left (fun s n => measure a vocabPrior (fst (iterate (Z.to_nat n) s))) cs s.

  Definition train (minIt iterations logFrequency : Z) (stop : nat -> bool) (isQuery : bool)
      (a : nat -> Q) (m : option mst) (s : qst) : res (option mst * qst) :=
    if existsb (fun d => doclen c d <? 1) (seq 0 (ndocs c)) then Raise ValueError else
    let s1 := run_calls a (calls (schedule minIt iterations logFrequency stop)) (add_model m s) in
    if isQuery then Ok (m, sub_model m s1)
    else Ok (match m with
             | Some m => Some (mkM (m_docs m + ndocs c) (vstack (m_docs m) (m_dk m) (q_dk s1)) (q_kt s1) (q_k s1))
             | None => Some (mkM (ndocs c) (q_dk s1) (q_kt s1) (q_k s1))
             end, s1).
End Cvb0.

(** ** CVB: the second-order variant also keeps variances

    lda_cvb_fast.pyx 276-400 [calculateCounts], 404-513 [iterate_f32],
    517-620 [iterate_f64].  The new probability is an arbitrary value [p]
    here: it involves exp; only the bookkeeping is modelled.  [None]: the
    64-bit version returns on an invalid probability (the check is commented
    out in the 32-bit version, for which [None] does not occur). *)
Record vst := mkV { n_dk : nat -> nat -> Q; n_kt : nat -> nat -> Q; n_k : nat -> Q;
                    v_dk : nat -> nat -> Q; v_kt : nat -> nat -> Q; v_k : nat -> Q;
                    v_z : nat -> nat -> nat -> Q }.

(** [f32 = true]: line 488, [mems[k] - (z * (1 - z))]; [false]: line 607. *)
Definition var_diff (f32 : bool) (p z : Q) : Q :=
  if f32 then (p - z * (1 - z))%Q else (p * (1 - p) - z * (1 - z))%Q.

Definition cvb_update (c : corpus) (f32 : bool) (d n k : nat) (p : Q) (s : vst) : vst :=
  let t := words c d n in
  let z := v_z s d n k in
  let diff := (p - z)%Q in
  let vdiff := var_diff f32 p z in
  mkV (upd2 (n_dk s) d k (n_dk s d k + diff)%Q) (upd2 (n_kt s) k t (n_kt s k t + diff)%Q)
      (upd1 (n_k s) k (n_k s k + diff)%Q)
      (upd2 (v_dk s) d k (v_dk s d k + vdiff)%Q) (upd2 (v_kt s) k t (v_kt s k t + vdiff)%Q)
      (upd1 (v_k s) k (v_k s k + vdiff)%Q)
      (upd3 (v_z s) d n k p).

(** A run is a sequence of topic updates [(d, n, k)] in loop order (sweeps over
    tokens, topics within tokens), each with the probability [prob] computed
    from the state before the token; [None] ends the call. *)
Definition cvb_token (c : corpus) (f32 : bool) (K : nat) (prob : vst -> nat -> nat -> nat -> option Q)
    (sb : vst * bool) (dn : nat * nat) : vst * bool :=
  if snd sb then
    let s0 := fst sb in
    fold_left (fun (sb : vst * bool) k => if snd sb then
                 match prob s0 (fst dn) (snd dn) k with
                 | Some p => (cvb_update c f32 (fst dn) (snd dn) k p (fst sb), true)
                 | None => (fst sb, false)
                 end else sb) (seq 0 K) sb
  else sb.
Definition cvb_iterate (c : corpus) (f32 : bool) (K : nat) prob (iterations : nat) (s : vst) : vst * bool :=
  Nat.iter iterations (fun sb => fold_left (cvb_token c f32 K prob) (tokens c) sb) (s, true).

(** lda_cvb_fast.pyx 276-400: counts and variances from responsibilities. *)
Definition cvb_counts (c : corpus) (K : nat) (z0 : nat -> nat -> nat -> Q) : vst :=
  let z := zero_tail c z0 in
  fold_left (fun s k =>
    fold_left (fun s dn => let (d, n) := (dn : nat * nat) in
      let t := words c d n in
      let val := z d n k in
      let w := (val * (1 - val))%Q in
      mkV (upd2 (n_dk s) d k (n_dk s d k + val)%Q) (upd2 (n_kt s) k t (n_kt s k t + val)%Q)
          (upd1 (n_k s) k (n_k s k + val)%Q)
          (upd2 (v_dk s) d k (v_dk s d k + w)%Q) (upd2 (v_kt s) k t (v_kt s k t + w)%Q)
          (upd1 (v_k s) k (v_k s k + w)%Q) (v_z s))
      (tokens c) s)
    (seq 0 K)
    (mkV (fun _ _ => 0%Q) (fun _ _ => 0%Q) (fun _ => 0%Q) (fun _ _ => 0%Q) (fun _ _ => 0%Q) (fun _ => 0%Q) z).

(** The trained part of a CVB model, and what lda_cvb.py 308-331 store in it
    after a training run whose counts are [s] (model counts already added).
    In the branch for an existing model line 321 writes the variances
    [q_v_k] to [m_n_k], and [m_v_k] keeps its old value. *)
Record cvm := mkCvm { cm_dk : nat -> nat -> Q; cm_kt : nat -> nat -> Q; cm_k : nat -> Q;
                      cm_vdk : nat -> nat -> Q; cm_vkt : nat -> nat -> Q; cm_vk : nat -> Q; cm_docs : nat }.
Definition cvb_store (c : corpus) (m : option cvm) (s : vst) : cvm :=
  match m with
  | Some m =>
      let D0 := cm_docs m in
      mkCvm (vstack D0 (cm_dk m) (n_dk s)) (n_kt s) (v_k s)
            (vstack D0 (cm_vdk m) (v_dk s)) (v_kt s) (cm_vk m) (D0 + ndocs c)
  | None => mkCvm (n_dk s) (n_kt s) (n_k s) (v_dk s) (v_kt s) (v_k s) (ndocs c)
  end.
Definition cvb_add (m : option cvm) (s : vst) : vst :=
  match m with
  | None => s
  | Some m => mkV (n_dk s) (fun k t => n_kt s k t + cm_kt m k t)%Q (fun k => n_k s k + cm_k m k)%Q
                  (v_dk s) (fun k t => v_kt s k t + cm_vkt m k t)%Q (fun k => v_k s k + cm_vk m k)%Q (v_z s)
  end.

(** lda_cvb.py 199-334 [train] for a training run whose calls to
    [do_iterations] have the sizes [cs]; the measurements in between are left
    out (they are those of [measure], which see). *)
Definition cvb_train (c : corpus) (f32 : bool) (K : nat) prob (cs : list Z) (m : option cvm) (s : vst)
  : cvm * vst :=
  let s1 := fold_left (fun s n => fst (cvb_iterate c f32 K prob (Z.to_nat n) s)) cs (cvb_add m s) in
  (cvb_store c m s1, s1).
