(** * Model of the Gibbs samplers: LDA (lda_gibbs.py, lda_gibbs_fast.pyx) and
    the mixture of multinomials (mom_gibbs.py).

    Counts are unbounded integers (int32 in the code), priors, weights and
    recorded sums are exact rationals (doubles in the code).  Array cells are
    total functions of their indices.  The random numbers are arbitrary
    functions: [start s d] is [rand_lim(0, docLens[d] - 1)] for document [d] in
    sweep [s], and [u s d i] is [rand() / RAND_MAX] for its [i]-th token visit. *)
From Coq Require Import List ZArith QArith Arith Bool Lia.
From Verif Require Import Base EvalSpec CvbModel.
Import ListNotations.
Open Scope nat_scope.

Definition inc1 (f : nat -> Z) (i : nat) (x : Z) : nat -> Z := upd1 f i (f i + x)%Z.
Definition inc2 (f : nat -> nat -> Z) (i j : nat) (x : Z) : nat -> nat -> Z := upd2 f i j (f i j + x)%Z.

(** The token list [w_list], the topic of every token [z_list] and the arrays
    that [sample] updates in place; [taken] is trueSampleCount. *)
Record gst := mkG { g_z : nat -> nat; g_dk : nat -> nat -> Z; g_kv : nat -> nat -> Z; g_k : nat -> Z }.
Record acc := mkAcc { topic_sum : nat -> nat -> Q; vocab_sum : nat -> nat -> Q; taken : nat }.

Section Lda.
  Context (K T : nat) (w : nat -> nat) (lens : list nat).
  Let D := length lens.
  Definition len_ (d : nat) : nat := nth d lens 0.

  (** lda_gibbs_fast.pyx 126-151 [sumSuffStats]: the counter [n] runs through
      the flat list, document by document. *)
  Definition add_token (d : nat) (ns : nat * gst) (_ : nat) : nat * gst :=
    let (n, s) := ns in
    let v := w n in
    let k := g_z s n in
    (S n, mkG (g_z s) (inc2 (g_dk s) d k 1) (inc2 (g_kv s) k v 1) (inc1 (g_k s) k 1)).
  Definition sum_suff_stats (s : gst) : gst :=
    snd (fold_left (fun ns d => fold_left (add_token d) (seq 0 (len_ d)) ns) (seq 0 D) (0, s)).

  Section Sample.
    Context (a b : nat -> Q) (isQuery : bool)
            (special : gst -> nat -> nat -> Z) (start : nat -> nat -> nat) (u : nat -> nat -> nat -> Q).
    Let aSum := qsum a (seq 0 K).
    Let bSum := qsum b (seq 0 T).
    Definition delta : Z := if isQuery then 0%Z else 1%Z.

    (** Lines 237-243: the weights of the topics; [None] on division by zero. *)
    Definition weight (s : gst) (d v j : nat) : option Q :=
      let den := (inject_Z (g_k s j) + bSum)%Q in
      if Qeq_bool den 0 then None
      else Some ((inject_Z (g_dk s d j) + a j) * (inject_Z (g_kv s j v) + b v) / den)%Q.

    (** Lines 245-250: walk round the topics while [draw] is positive.  [fuel]
        bounds the number of steps; OtherError stands for running on. *)
    Fixpoint walk (fuel : nat) (dist : list Q) (k : Z) (draw : Q) : res Z :=
      if Qle_bool draw 0 then Ok k
      else match fuel with
           | 0 => Raise OtherError
           | S f =>
               let k' := ((k + 1) mod Z.of_nat K)%Z in
               walk f dist k' (draw - nth (Z.to_nat k') dist 0)%Q
           end.
    (** After a division by zero the weights are infinite or NaN and the
        outcome of the walk is an arbitrary value between -1 and K-1. *)
    Definition draw_topic (s : gst) (d v : nat) (r : Q) : res Z :=
      match all_some (map (weight s d v) (seq 0 K)) with
      | Some dist => walk K dist (-1)%Z (r * qsum (fun x => x) dist)%Q
      | None => Ok (special s d v)
      end.

    (** Lines 228-257: one token.  The topic is stored as uint8; the counts are
        updated at the undiminished [k], and [k = -1] writes before the start
        of the row. *)
    Definition u8 : nat := 256.
    Definition visit (d n : nat) (r : Q) (s : gst) : res gst :=
      let k := g_z s n in
      let v := w n in
      let s1 := mkG (g_z s) (inc2 (g_dk s) d k (-1)) (inc2 (g_kv s) k v (- delta)) (inc1 (g_k s) k (- delta)) in
      do z <- draw_topic s1 d v r;
      if (z <? 0)%Z then Raise MemoryOOB else
      let k' := Z.to_nat z in
      Ok (mkG (upd1 (g_z s1) n (k' mod u8))
              (inc2 (g_dk s1) d k' 1) (inc2 (g_kv s1) k' v delta) (inc1 (g_k s1) k' delta)).

    (** Lines 221-226: the positions within a document, in the order visited. *)
    Fixpoint positions (len : nat) (m : nat) (nsimple : nat) : list nat :=
      match m with
      | 0 => []
      | S m => let p := (nsimple + 1) mod len in p :: positions len m p
      end.
    Definition visits (sw d : nat) : list nat := positions (len_ d) (len_ d) (start sw d).
    Definition doc_sweep (sw d offset : nat) (s : gst) : res gst :=
      fold_left (fun rs ip => do s <- rs; visit d (offset + snd ip) (u sw d (fst ip)) s)
                (combine (seq 0 (len_ d)) (visits sw d)) (Ok s).
    (** Lines 219-259: all documents, with the running offset [start]. *)
    Definition sweep_docs (sw : nat) (s : gst) : res gst :=
      do os <- fold_left (fun ros d =>
                 do os <- ros;
                 do s' <- doc_sweep sw d (fst os) (snd os);
                 Ok (fst os + len_ d, s')) (seq 0 D) (Ok (0, s));
      Ok (snd os).

    (** Lines 267-277: record a sample. *)
    Definition record (s : gst) (c : acc) : acc :=
      mkAcc (fun d k => topic_sum c d k + (inject_Z (g_dk s d k) + a k) / (qnat (len_ d) + aSum))%Q
            (if isQuery then vocab_sum c
             else fun k v => (vocab_sum c k v + (inject_Z (g_kv s k v) + b v) / (inject_Z (g_k s k) + bSum))%Q)
            (taken c + 1).

    (** Lines 159-290 [sample]; the result is the states and the number of
        samples taken by this call.  [thin = 0] is a division by zero in C.
        UpdateHyperParameters is the constant False, so that branch is left out. *)
    Definition sample_step (thin : nat) (rs : res (gst * acc)) (sw : nat) : res (gst * acc) :=
      do sc <- rs;
      do s' <- sweep_docs sw (fst sc);
      if thin =? 0 then Raise ZeroDivisionError
      else Ok (s', if (sw + 1) mod thin =? 0 then record s' (snd sc) else snd sc).
    Definition sample (count : Z) (thin : nat) (s : gst) (c : acc) : res (gst * acc) :=
      fold_left (sample_step thin) (seq 0 (Z.to_nat count)) (Ok (s, mkAcc (topic_sum c) (vocab_sum c) 0)).
  End Sample.

  (** ** lda_gibbs.py *)

  (** Lines 166-175 [newTrainPlan]: (iterations, burnIn, thin). *)
  Definition new_train_plan (iterations burnIn thin : Z) : Z * Z * Z :=
    let burnIn := if (burnIn <? 0)%Z then (iterations / 2)%Z else burnIn in
    let thin := if (thin <? 0)%Z
                then if (iterations <=? 100)%Z then 5%Z else if (iterations <=? 1000)%Z then 10%Z else 50%Z
                else thin in
    ((iterations + burnIn)%Z, burnIn, thin).

  Definition zeroK : nat -> nat -> Q := fun _ _ => 0%Q.

  (** The random numbers of the two calls of [sample]. *)
  Record rng := mkRng { r_start : nat -> nat -> nat; r_u : nat -> nat -> nat -> Q }.

  (** Lines 183-221 [train]: counts from the assignments [z], burn-in, then
      sampling.  The result holds the counts, the final assignments, the sums
      and numSamples.  [burnIn + 1] is not zero for plans of newTrainPlan, and
      [range] of a negative count is empty. *)
  Definition run_plan (a b : nat -> Q) (isQuery : bool) special (r1 r2 : rng)
      (plan : Z * Z * Z) (s : gst) (c : acc) : res (gst * acc) :=
    let '(iterations, burnIn, thin) := plan in
    do sc <- sample a b isQuery special (r_start r1) (r_u r1) burnIn (Z.to_nat (burnIn + 1)) s c;
    sample a b isQuery special (r_start r2) (r_u r2) (iterations - burnIn) (Z.to_nat thin) (fst sc) (snd sc).
  Definition train (a b : nat -> Q) special (r1 r2 : rng) (plan : Z * Z * Z) (z : nat -> nat) : res (gst * acc) :=
    run_plan a b false special r1 r2 plan
      (sum_suff_stats (mkG z (fun _ _ => 0%Z) (fun _ _ => 0%Z) (fun _ => 0%Z)))
      (mkAcc zeroK zeroK 0).

  (** Lines 261-276 [topicDists], [wordDists]: division by numSamples, where
      zero gives NaN ([None]). *)
  Definition averaged (sums : nat -> nat -> Q) (numSamples : nat) : option (nat -> nat -> Q) :=
    if numSamples =? 0 then None else Some (fun i j => sums i j / qnat numSamples)%Q.
  Definition topic_dists (c : acc) := averaged (topic_sum c) (taken c).
  Definition word_dists (c : acc) := averaged (vocab_sum c) (taken c).

  (** Lines 224-257 [query]: the model is its [vocab_sum] and numSamples; the
      counts are a million times its word distributions, truncated towards
      zero, to which [sumSuffStats] adds the assignments of the query.  The
      model that is returned has the model's [vocab_sum] and the query's
      numSamples; both are in the resulting [acc]. *)
  Definition truncQ (q : Q) : Z := Z.quot (Qnum q) (Zpos (Qden q)).
  Definition query (a : nat -> Q) special (r1 r2 : rng) (plan : Z * Z * Z) (model : acc) (z : nat -> nat)
    : res (gst * acc) :=
    match word_dists model with
    | None => Raise OtherError           (* NaN cast to int: arbitrary counts *)
    | Some wd =>
        let nkv := fun k v => truncQ (wd k v * 1000000)%Q in
        let nk := fun k => sumZ (map (nkv k) (seq 0 T)) in
        run_plan a (fun _ => 0%Q) true special r1 r2 plan
          (sum_suff_stats (mkG z (fun _ _ => 0%Z) nkv nk))
          (mkAcc zeroK (vocab_sum model) 0)
    end.
End Lda.

(** ** Mixture of multinomials: mom_gibbs.py *)

(** Lines 130-145 [newTrainPlan]: (iterations, burnIn, thinning). *)
Definition mom_plan (iterations : Z) (burnIn thinning : option Z) : Z * Z * Z :=
  (iterations,
   match burnIn with Some x => x | None => (iterations / 4)%Z end,
   match thinning with Some x => x | None => Z.min 1 (iterations / 10) end).

(** Lines 222-225 [is_sampling_iteration]; [and] stops at the first false. *)
Definition is_sampling_iteration (itr burnIn thinning : Z) : res bool :=
  if negb (0 <? itr)%Z then Ok false
  else if negb (burnIn <? itr)%Z then Ok false
  else if (thinning =? 0)%Z then Raise ZeroDivisionError
  else Ok (itr mod thinning =? 0)%Z.

(** Lines 183-204 [sample_memberships]: only the bookkeeping.  [M d k] are the
    memberships, [alpha] the prior, [choose M prior d] the topic drawn for [d]
    from the prior and the words (the multinomial draw of line 200); the
    result also lists the priors (priorNum) that were used. *)
Definition colsum (D : nat) (M : nat -> nat -> Q) (k : nat) : Q := qsum (fun d => M d k) (seq 0 D).
Definition onehot (j : nat) : nat -> Q := fun k => if k =? j then 1%Q else 0%Q.
Definition member_step (choose : (nat -> nat -> Q) -> (nat -> Q) -> nat -> nat)
    (st : (nat -> nat -> Q) * (nat -> Q) * list (nat -> Q)) (d : nat) :=
  let '(M, priorNum, used) := st in
  let p1 := fun k => (priorNum k - M d k)%Q in
  let M' := upd1 M d (onehot (choose M p1 d)) in
  (M', (fun k => p1 k + M' d k)%Q, used ++ [p1]).
Definition sample_memberships (D : nat) (alpha : nat -> Q) choose (M : nat -> nat -> Q) :=
  fold_left (member_step choose) (seq 0 D) (M, (fun k => colsum D M k + alpha k - 1)%Q, []).

(** Lines 228-297 [train], lines 300-334 [query]: the sampling loop.  One
    iteration turns the state into the next ([step]); [S] stands for the pair
    of memberships and word distributions.  The lists of samples taken stand
    for their sums and counts.  The checks of [train] for empty documents and
    the element type are left out.

    Line 285: in an iteration that is logged the name [log_likelihood] is not
    defined in the module. *)
Section Mom.
  Context {S : Type} (step : nat -> S -> S).
  Definition is_logged (logFrequency : Z) (debug : bool) (itr : nat) : bool :=
    debug || ((0 <? logFrequency)%Z && (Z.of_nat itr mod logFrequency =? 0)%Z).
  Definition mom_step (burnIn thinning : Z) (logged : nat -> bool) (rs : res (S * list S)) (itr : nat) : res (S * list S) :=
    do sl <- rs;
    let s' := step itr (fst sl) in
    do t <- is_sampling_iteration (Z.of_nat itr) burnIn thinning;
    if logged itr then Raise NameError
    else Ok (s', if t then snd sl ++ [s'] else snd sl).
  Definition mom_loop (n : nat) (burnIn thinning : Z) (logged : nat -> bool) (s : S) : res (S * list S) :=
    fold_left (mom_step burnIn thinning logged) (seq 0 n) (Ok (s, [])).
  (** [train] runs iterations + burnIn times and returns the last state; the
      samples are summed but not used. *)
  Definition mom_train (plan : Z * Z * Z) (logFrequency : Z) (debug : bool) (s : S) : res (S * list S) :=
    let '(iterations, burnIn, thinning) := plan in
    mom_loop (Z.to_nat (iterations + burnIn)) burnIn thinning (is_logged logFrequency debug) s.
  Definition mom_train_result (plan : Z * Z * Z) (logFrequency : Z) (debug : bool) (s : S) : res S :=
    do r <- mom_train plan logFrequency debug s; Ok (fst r).
  (** [query] runs [iterations] times and divides the sum of the samples by
      their number; no samples give NaN.  It does not log. *)
  Definition mom_query (plan : Z * Z * Z) (s : S) : res (list S) :=
    let '(iterations, burnIn, thinning) := plan in
    do r <- mom_loop (Z.to_nat iterations) burnIn thinning (fun _ => false) s; Ok (snd r).
End Mom.
