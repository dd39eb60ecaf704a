(** * Model of /repo/sidetopics/model/lda_vb_fast.pyx, of the training and querying in
    lda_vb.py and lda_svb.py that call it, and of their accessors.

    Numbers are reals: rounding, overflow and NaN are not modelled, so the single and the
    double precision functions differ only in [low].  The digamma function [psi] is
    arbitrary.  Matrices are functions of their indices; only entries inside the bounds of
    the arrays are read.  The arrays written in place are returned.  What is printed is
    left out. *)
From Coq Require Import List Reals ZArith Arith Bool.
From Verif Require Import Base RealModel CvbModel VbModel.
Import ListNotations.
Open Scope nat_scope.

(** lda_vb_fast.pyx 35-36. *)
Definition max_inner : nat := 100.
Definition min_inner : nat := 3.

(** The arrays: topicDists, vocabDists and the work space z_dnk. *)
Record vst := mkV { v_topics : mat; v_vocab : mat; v_z : mat }.

(** lda_vb.py 345-364 [wordDists], [topicDists]: the arrays of the model and of the query
    state are divided in place; [n] is the number of columns.  The result is the new
    contents, which is also what is returned. *)
Definition word_dists (T : nat) (s : vst) : vst := mkV (v_topics s) (norm_rows T (v_vocab s)) (v_z s).
Definition topic_dists (K : nat) (s : vst) : vst := mkV (norm_rows K (v_topics s)) (v_vocab s) (v_z s).

Section VbFast.
  Context (psi : R -> R) (low : R) (K T : nat).
  (** [W d n] is W_list[d,n] and [lens d] docLens[d]. *)
  Context (D : nat) (W : nat -> nat -> nat) (lens : nat -> nat) (prior : vec) (vocabPrior : R).

  (** lda_vb_fast.pyx 47-50 [digamma]. *)
  Definition digamma (x : R) : R := psi (if rltb x (/ 10 ^ 300) then / 10 ^ 300 else x)%R.

  (** Lines 245-246 and 667-668: the whole-number D is converted, then divided. *)
  Definition post : R := (INR D / INR K)%R.

  (** Lines 262-280 (684-702): the row of z_dnk of a token with word [t]; [td] is
      topicDists[d,:]. *)
  Definition token_scores (diV : mat) (diS td : vec) (t : nat) : list R :=
    map (fun k => diV k t - diS k + digamma (td k))%R (seq 0 K).
  Definition scan_high (l : list R) : R := fold_left (fun m x => if rltb m x then x else m) l low.
  Definition token_row (diV : mat) (diS td : vec) (t : nat) : vec :=
    let s := token_scores diV diS td t in
    let e := map (fun x => exp (x - scan_high s)) s in
    let norm := fold_left Rplus e 0%R in
    fun k => (nth k e 0 / norm)%R.

  (** Lines 253-290 (675-712), one pass: new topicDists[d,:] and z_dnk. *)
  Definition reset_topics : vec := fun k => (prior k + post)%R.
  Definition add_rows_to (z : mat) (n_tokens : nat) (td : vec) : vec :=
    fold_left (fun td n => fold_left (fun td k => upd1 td k (td k + z n k)%R) (seq 0 K) td) (seq 0 n_tokens) td.
  Definition inner (diV : mat) (diS : vec) (d : nat) (z : mat) : vec * mat :=
    let td := reset_topics in
    let z' := fold_left (fun z n => upd1 z n (token_row diV diS td (W d n))) (seq 0 (lens d)) z in
    (add_rows_to z' (lens d) td, z').

  (** l1_dist_f32, l1_dist_f64: lines 317-325, 740-748. *)
  Definition l1_dist (a b : vec) : R := fold_left (fun r k => r + Rabs (a k - b k))%R (seq 0 K) 0%R.

  (** infer_topics_f32, lines 199-296, and infer_topics_f64, lines 621-718: [fuel] counts
      down from MaxInnerItrs.  Results: innerItrs, topicDists[d,:], z_dnk. *)
  Fixpoint infer_loop (diV : mat) (diS : vec) (d fuel itrs : nat) (old td : vec) (z : mat) : nat * vec * mat :=
    match fuel with
    | 0 => (itrs, td, z)
    | S f =>
        if (itrs <? min_inner) || rltb (/ 100 / INR K) (l1_dist old td)
        then let (td', z') := inner diV diS d z in infer_loop diV diS d f (S itrs) td td' z'
        else (itrs, td, z)
    end.
  Definition infer_topics (diV : mat) (diS : vec) (d : nat) (z : mat) : nat * vec * mat :=
    infer_loop diV diS d max_inner 0 (fun _ => 1 / INR K)%R reset_topics z.

  Definition di_vocab (V : mat) : mat := fun k t => psi (V k t).
  Definition di_sums (V : mat) : vec := fun k => psi (vsum T (V k)).

  (** Lines 129-133 (413-417, 528-531): the words of document [d] are added to the vocabulary. *)
  Definition add_doc (d : nat) (z V : mat) : mat :=
    fold_left (fun V k => fold_left (fun V n => upd2 V k (W d n) (V k (W d n) + z n k)%R) (seq 0 (lens d)) V) (seq 0 K) V.

  (** iterate_f32, lines 61-166: one iteration.  The same text for double precision at lines
      345-450 is replaced by the second definition below. *)
  Definition iter_doc (diV : mat) (diS : vec) (s : vst) (d : nat) : vst :=
    let '(_, td, z) := infer_topics diV diS d (v_z s) in
    mkV (set_row (v_topics s) d td) (add_doc d z (v_vocab s)) z.
  Definition iterate1 (s : vst) : vst :=
    fold_left (iter_doc (di_vocab (v_vocab s)) (di_sums (v_vocab s))) (seq 0 D)
              (mkV (v_topics s) (fun _ _ => vocabPrior) (v_z s)).
  Definition iterate_f32 (n : nat) (s : vst) : vst := Nat.iter n iterate1 s.

  (** query_f32, lines 173-194, query_f64, lines 595-616. *)
  Definition query_doc (diV : mat) (diS : vec) (s : vst) (d : nat) : vst :=
    let '(_, td, z) := infer_topics diV diS d (v_z s) in
    mkV (set_row (v_topics s) d td) (v_vocab s) z.
  Definition query1 (s : vst) : vst :=
    fold_left (query_doc (di_vocab (v_vocab s)) (di_sums (v_vocab s))) (seq 0 D) s.

  (** lda_vb.py 304-343 [query]: both branches call query_f64, to which arrays of single
      precision cannot be passed. *)
  Definition query (double : bool) (iterations : Z) (s : vst) : res vst :=
    if D =? 0 then Raise ValueError                       (* docLens.max() *)
    else if (iterations <=? 0)%Z then Ok s
    else if double then Ok (Nat.iter (Z.to_nat iterations) query1 s)
    else Raise ValueError.

  (** iterate_f64, second definition, lines 456-588: the state also has the digammas, the
      sums vocabUpdates and batchProcessCount.  [step itr] is stepSize. *)
  Record sst := mkSt { s_arrays : vst; s_diV : mat; s_diS : vec; s_updates : mat; s_count : nat }.
  Definition svb_doc (batchSize : Z) (step : R) (s : sst) (d : nat) : sst :=
    let count := s_count s + 0 in
    let a := s_arrays s in
    let '(_, td, z) := infer_topics (s_diV s) (s_diS s) d (v_z a) in
    let top := set_row (v_topics a) d td in
    let U := add_doc d z (s_updates s) in
    if (0 <? batchSize)%Z then
      if (batchSize <=? Z.of_nat count)%Z then
        let V := fun k t => ((1 - step) * v_vocab a k t + step * U k t)%R in
        mkSt (mkV top V z) (di_vocab V) (di_sums V) (fun _ _ => 0%R) 0
      else mkSt (mkV top (v_vocab a) z) (s_diV s) (s_diS s) U count
    else if d =? D - 1 then mkSt (mkV top U z) (di_vocab U) (di_sums U) U count
    else mkSt (mkV top (v_vocab a) z) (s_diV s) (s_diS s) U count.
  Definition svb_iteration (batchSize : Z) (step : nat -> R) (ac : vst * nat) (itr : nat) : vst * nat :=
    let (a, count) := ac in
    let U := fun (_ _ : nat) => if (batchSize =? 0)%Z then vocabPrior else 0%R in
    let s := fold_left (svb_doc batchSize (step itr)) (seq 0 D)
                       (mkSt a (di_vocab (v_vocab a)) (di_sums (v_vocab a)) U count) in
    (s_arrays s, s_count s).
  Definition iterate_f64 (n : nat) (batchSize : Z) (step : nat -> R) (a : vst) : vst :=
    fst (fold_left (svb_iteration batchSize step) (seq 0 n) (a, 0)).

  (** lda_vb.py 220-221 and 240-241: var_bound() calls wordDists, log_likelihood() calls
      both accessors (lines 374, 393). *)
  Definition look (s : vst) : vst := topic_dists K (word_dists T s).

  (** lda_vb.py 152-246 and lda_svb.py 158-257 [train], as in CvbModel.vb_schedule, with the
      arrays; [stop j] is the outcome of converged() after segment [j]; [stepSize] of segment
      [j] is [step (j * segIters)].  z_dnk is allocated by each call. *)
  Fixpoint train_loop (call : nat -> vst -> res vst) (stop : nat -> bool) (segs : list nat) (s : vst) : res (vst * bool) :=
    match segs with
    | [] => Ok (s, false)
    | j :: segs =>
        do s' <- call j s;
        if stop j then Ok (look s', true) else train_loop call stop segs (look s')
    end.
  Definition train (stochastic double : bool) (batchSize : Z) (step : nat -> nat -> R)
      (iterations logFrequency : Z) (stop : nat -> bool) (s : vst) : res vst :=
    if existsb (fun d => lens d <? 1) (seq 0 D) then Raise ValueError else
    let lp := log_points iterations logFrequency in
    if (lp <? 0)%Z then Raise ValueError
    else if D =? 0 then Raise ValueError                  (* docLens.max() *)
    else
      let segIters := Z.to_nat logFrequency in
      let call := fun j s =>
        if negb ((if stochastic then 15 else 11) =? iterate_arity double) then Raise TypeError
        else if double then Ok (iterate_f64 segIters batchSize (step (j * segIters)) s)
        else Ok (iterate_f32 segIters s) in
      do r <- train_loop call stop (seq 0 (Z.to_nat (lp - 1))) s;
      if snd r then Ok (fst r)
      else if negb (11 =? iterate_arity double) then Raise TypeError
      else if (lp =? 0)%Z then Raise IndexError
      else Ok (look (iterate_f32 (Z.to_nat (remainder_iters iterations logFrequency)) (fst r))).

  (** ** var_bound, lda_vb.py 377-452: the part that uses z_dnk, lines 418-438.  [maxN] is
      the longest document; [z] the contents of the array on allocation by np.empty.
      The model is already normalised (line 393).  Lines 419-431 set the rows of the
      document, and turn all rows into distributions (the maximum subtracted first cancels);
      line 436 sums over all of them.  safe_log is taken as the logarithm. *)
  Definition softmax_vec (v : vec) : vec :=
    fun k => (exp (v k) / rsum (map (fun j => exp (v j)) (seq 0 K)))%R.
  Definition bound_rows (topics vocab : mat) (d : nat) (z : mat) : mat :=
    fun n => softmax_vec (if n <? lens d then fun k => (ln (vocab k (W d n)) + psi (topics d k))%R else z n).
  Definition bound_doc (maxN : nat) (topics vocab : mat) (d : nat) (z : mat) : R :=
    (let di := fun k => psi (topics d k) - psi (vsum K (topics d)) in
     rsum (map (fun n => rsum (map (fun k => z n k * di k) (seq 0 K))) (seq 0 maxN))
     + rsum (map (fun n => rsum (map (fun k => z n k * (psi (vocab k (W d n)) - psi (vsum T (vocab k)))) (seq 0 K))) (seq 0 (lens d)))
     - rsum (map (fun n => rsum (map (fun k => z n k * ln (z n k)) (seq 0 K))) (seq 0 (lens d))))%R.
  Definition bound_of_tokens (maxN : nat) (topics vocab : mat) (z : mat) : R :=
    fst (fold_left (fun bz d => let z' := bound_rows topics vocab d (snd bz) in
                                (fst bz + bound_doc maxN topics vocab d z', z')%R) (seq 0 D) (0%R, z)).
  (** The other terms depend on the model, the topics and the data only ([others]). *)
  Definition var_bound (others : mat -> mat -> R) (maxN : nat) (s : vst) (z : mat) : R :=
    (others (v_topics s) (norm_rows T (v_vocab s)) + bound_of_tokens maxN (v_topics s) (norm_rows T (v_vocab s)) z)%R.
End VbFast.
