(** * Model of the correlated topic model with Bouchard's bound,
    /repo/sidetopics/model/ctm.py lines 158-380 and 407-457 and 472-570 (the model named
    ctm_bouchard by run/__main__.py), and of the side topic model with that bound,
    /repo/sidetopics/model/stm_yv.py lines 162-397 and 502-512 (stm_yv_bouchard).

    Numbers are reals without rounding; matrices are functions of their indices with
    their dimensions given beside them.  scipy.linalg.inv and det, and oas of
    scikit-learn, are the arguments [inv], [det] and [oas]; the perplexity that decides
    whether to stop early is any function of the topics.  The array expMeans, which is
    computed anew before each use, is left out, and so is what is printed; the bound of
    stm_yv.py is in YvBoundModel. *)
From Coq Require Import List Reals ZArith Arith Bool.
From Verif Require Import Base RealModel VbModel LinkModel CtmModel MtmModel.
Import ListNotations.
Open Scope nat_scope.

(** negJakkola, ctm.py line 481, and lines 512 and 515. *)
Definition neg_jakkola (x : R) : R := (5 / 10 / x * (1 / (1 + exp (- x)) - 5 / 10))%R.
(** _deriveXi, ctm.py line 570, for one document and one topic. *)
Definition derive_xi (m v s : R) : R := sqrt (m * m - 2 * m * s + s * s + v * v).
(** negJakkolaOfDerivedXi, ctm.py lines 509-515. *)
Definition lxi_of (means varcs : mat) (s : vec) : mat :=
  fun d k => neg_jakkola (derive_xi (means d k) (varcs d k) (s d)).

Section bouch.
  Variables K D T : nat.
  Variable W : mat.               (* data.words *)
  Variable n : vec.               (* docLens *)
  Variable beta : R.              (* vocabPrior *)
  Variable inv : mat -> mat.      (* la.inv *)
  Variable det : mat -> R.        (* la.det *)
  Variable oas : mat -> mat.      (* sklearn.covariance.oas, the estimate *)
  Variable inv_of : nat -> mat -> mat. (* la.inv of a matrix with this many rows *)

  (** ** ctm.py, train, lines 158-311 *)
  (** The variables of the model and of the query state. *)
  Record bouch := { b_mean : vec; b_sigT : mat; b_vocab : mat; b_means : mat; b_varcs : mat; b_lxi : mat; b_s : vec }.

  (** Line 199. *)
  Definition kappa : R := (INR K + 2)%R.
  (** Lines 211-213: USE_NIW_PRIOR is True. *)
  Definition niw_mean (means : mat) : vec := fun k => (vsum D (fun d => means d k) / (INR D + kappa))%R.
  (** Lines 219-232: the diagonal of sigT. *)
  Definition niw_diag (mu : vec) (means varcs : mat) : vec := fun k =>
    (oas means k k + vsum D (fun d => varcs d k) / INR D + 1 / 10 + kappa * INR D / (kappa + INR D) * (mu k * mu k))%R.
  (** np.diag of a vector. *)
  Definition diag (c : vec) : mat := fun i j => if i =? j then c i else 0%R.

  (** Lines 266-267. *)
  Definition bouch_rhs (prior S lxi : mat) (s : vec) : mat := fun d k =>
    ((s d * lxi d k - 5 / 10) * n d + S d k + prior d k)%R.

  (** One turn of the loop, lines 211-276.  np.squeeze (line 134) makes the length of a
      single document a number, which line 262 cannot index. *)
  Definition bouch_iter (st : bouch) : res bouch :=
    let mu := niw_mean (b_means st) in
    let c := niw_diag mu (b_means st) (b_varcs st) in
    let isigT := diag (fun k => 1 / c k)%R in
    let e := exp_means K (b_means st) in
    let vocab := vocab_update K D T W beta e (b_vocab st) in
    let S := token_weights K T W e vocab in
    if D =? 1 then Raise IndexError else
    let varcs := fun d k => (/ (n d * b_lxi st d k + isigT k k))%R in
    let r := bouch_rhs (ctm_prior K isigT mu) S (b_lxi st) (b_s st) in
    let raw := fun d k => (varcs d k * r d k)%R in
    let means := fun d k => (raw d k - raw d 0%nat)%R in
    Ok {| b_mean := mu; b_sigT := diag c; b_vocab := vocab; b_means := means; b_varcs := varcs;
          b_lxi := fun d k => (2 * lxi_of means varcs (b_s st) d k)%R; b_s := b_s st |}.

  (** Lines 204-305.  The arrays of measurements have [size] places (lines 185-187);
      [idx] is bvIdx.  The perplexity is that of the topics of the documents and of the
      words; [last] is the one before.  [least] is the iteration before which no
      measurement ends the training: 30 (line 300), and 51 in stm_yv.py (line 313). *)
  Section loop.
    Context {St : Type}.
    Variable iter : St -> res St.
    Variable perp : St -> R.
    Fixpoint log_loop (least size logFrequency : nat) (itr todo idx : nat) (last : R) (st : St) : res St :=
      match todo with
      | 0 => Ok st
      | S todo =>
        do st <- iter st;
        if itr mod logFrequency =? 0 then
          if size <=? idx then Raise IndexError else
          if (1 <? idx) && (least <=? itr) && rltb (last - perp st) 1 then Ok st
          else log_loop least size logFrequency (S itr) todo (S idx) (perp st) st
        else log_loop least size logFrequency (S itr) todo idx last st
      end.
    (** Line 185 divides by logFrequency. *)
    Definition log_train (least logFrequency iterations : nat) (st : St) : res St :=
      if logFrequency =? 0 then Raise ZeroDivisionError else
      log_loop least (iterations / logFrequency) logFrequency 0 iterations 0 0%R st.
  End loop.

  (** Line 196: s.fill(0). *)
  Definition bouch_start (st : bouch) : bouch :=
    {| b_mean := b_mean st; b_sigT := b_sigT st; b_vocab := b_vocab st; b_means := b_means st; b_varcs := b_varcs st;
       b_lxi := b_lxi st; b_s := fun _ => 0%R |}.
  Definition bouch_train (perp : bouch -> R) (logFrequency iterations : nat) (st : bouch) : res bouch :=
    log_train bouch_iter perp 30 logFrequency iterations (bouch_start st).

  (** ** ctm.py, query, lines 314-380 *)
  Record bquery := { bq_means : mat; bq_varcs : mat; bq_lxi : mat; bq_s : vec }.
  (** Line 371. *)
  Definition new_s (lxi means : mat) : vec := fun d =>
    ((vsum K (fun k => lxi d k * means d k) + 1 / 4 * INR K - 5 / 10) / vsum K (lxi d))%R.
  (** Lines 350-371; [S] is that of the means before the loop (line 341). *)
  Definition bquery_iter (isigT prior S : mat) (q : bquery) : bquery :=
    let r := bouch_rhs prior S (bq_lxi q) (bq_s q) in
    let lhs := fun d i j => (isigT i j + diag (fun k => n d * bq_lxi q d k) i j)%R in
    let means := fun d k => vsum K (fun j => inv (lhs d) k j * r d j)%R in
    let varcs := fun d k => (1 / (n d * bq_lxi q d k + isigT k k))%R in
    let lxi := fun d k => (2 * lxi_of means varcs (bq_s q) d k)%R in
    {| bq_means := means; bq_varcs := varcs; bq_lxi := lxi; bq_s := new_s lxi means |}.
  (** Lines 347-378, of both modules. *)
  Fixpoint bquery_loop (iter : bquery -> bquery) (perp : mat -> R) (itr todo : nat) (last : R) (q : bquery) : bquery :=
    match todo with
    | 0 => q
    | S todo =>
      let q := iter q in
      let p := perp (bq_means q) in
      if (20 <? itr) && rltb (last - p) 1 then q else bquery_loop iter perp (S itr) todo p q
    end.
  (** Line 350 cannot index the length of a single document. *)
  Definition bouch_query (perp : mat -> R) (last : R) (iterations : nat) (mu : vec) (sigT vocab : mat) (q : bquery) : res bquery :=
    let isigT := inv sigT in
    let S := token_weights K T W (exp_means K (bq_means q)) vocab in
    if (D =? 1) && negb (iterations =? 0) then Raise IndexError else
    Ok (bquery_loop (bquery_iter isigT (ctm_prior K isigT mu) S) perp 0 iterations last q).

  (** ** ctm.py, var_bound, lines 407-457 *)
  Variable tiny_float : R.
  (** Lines 440-454, for document [d] and topic [k]. *)
  Definition bound_topic (m v lxi s xi N : R) : R :=
    (- ((m * m + v) * N * lxi) + m * 2 * N * s * lxi + m * - (5 / 10) * N
     - N * lxi * (s * s - xi * xi) + 5 / 10 * N * (s + xi) - N * ln (1 + exp xi))%R.
  (** LN_OF_2_PI and LN_OF_2_PI_E are lines 43-44. *)
  Definition bouch_bound (mu : vec) (sigT vocab : mat) (q : bquery) : R :=
    let isigT := inv sigT in
    let e := exp_means K (bq_means q) in
    (- (INR D * INR K / 2 * ln (2 * PI)) - INR D / 2 * det sigT
     - 5 / 10 * vsum D (fun d => vsum K (fun k => vsum K (fun j => (bq_means q d j - mu j) * isigT j k) * (bq_means q d k - mu k)))
     - 5 / 10 * vsum D (fun d => vsum K (fun k => bq_varcs q d k * isigT k k))
     + 5 / 10 * INR D * INR K * ln (2 * PI * exp 1) + 5 / 10 * vsum D (fun d => vsum K (fun k => ln (bq_varcs q d k)))
     + vsum D (fun d => vsum K (fun k => bound_topic (bq_means q d k) (bq_varcs q d k) (bq_lxi q d k) (bq_s q d)
                                           (derive_xi (bq_means q d k) (bq_varcs q d k) (bq_s q d)) (n d)))
     + vsum D (fun d => vsum T (fun t => W d t * safe_ln tiny_float (vsum K (fun k => e d k * vocab k t))))
     - vsum D (fun d => bq_s q d * n d))%R.

  (** ** stm_yv.py, train, lines 162-324 *)
  Variables F P : nat.
  Variables fv lfv : R.
  Variable X : mat.               (* data.feats *)
  Record yv := { y_A : mat; y_Y : mat; y_RY : mat; y_V : mat; y_sigT : mat; y_vocab : mat;
                 y_means : mat; y_varcs : mat; y_lxi : mat; y_s : vec }.

  (** Lines 212-217. *)
  Definition yv_RA : mat := inv_of F (fun f g => vsum D (fun d => X d f * X d g) + (if f =? g then 1 / fv else 0))%R.
  (** Lines 229-240: the diagonal of sigT. *)
  Definition yv_diag (st : yv) : vec := fun k =>
    let diffa := fun f => (y_A st k f - vsum P (fun p => y_Y st k p * y_V st p f))%R in
    let diffm := fun d => (y_means st d k - vsum F (fun f => X d f * y_A st k f))%R in
    ((1 / lfv * vsum P (fun p => y_Y st k p * y_Y st k p) + 1 / fv * vsum F (fun f => diffa f * diffa f)
      + vsum D (fun d => diffm d * diffm d) + vsum D (fun d => y_varcs st d k)) / (INR P + INR F + INR D) + 1 / 1000)%R.
  (** Line 259. *)
  Definition yv_V (isigT : vec) (Y RY A : mat) : mat := fun p f =>
    vsum P (fun q => inv_of P (fun i j => RY i j + vsum K (fun k => Y k i * isigT k * Y k j)) p q
                     * vsum K (fun k => Y k q * isigT k * A k f))%R.
  (** Lines 266-267. *)
  Definition yv_RY (V : mat) : mat :=
    inv_of P (fun i j => (if i =? j then 1 / lfv else 0) + 1 / fv * vsum F (fun f => V i f * V j f))%R.
  (** Line 270. *)
  Definition yv_Y (A V RY : mat) : mat := fun k p =>
    (1 / fv * vsum P (fun q => vsum F (fun f => A k f * V q f) * RY q p))%R.
  (** Line 274. *)
  Definition yv_A (Y V means : mat) : mat := fun k f =>
    vsum F (fun g => (1 / fv * vsum P (fun p => Y k p * V p g) + vsum D (fun d => X d g * means d k)) * yv_RA g f)%R.

  (** One turn of the loop, lines 229-290.  S (line 248) is that of the vocabulary before
      it is updated.  With debugging on, line 243 makes a QueryState without all of its
      fields (line 512).  Line 278 cannot index the length of a single document. *)
  Definition yv_iter (debug : bool) (st : yv) : res yv :=
    let c := yv_diag st in
    let p := fun k => (/ c k)%R in
    if debug then Raise TypeError else
    let e := exp_means K (y_means st) in
    let S := token_weights K T W e (y_vocab st) in
    let vocab := vocab_update K D T W beta e (y_vocab st) in
    let V := yv_V p (y_Y st) (y_RY st) (y_A st) in
    let RY := yv_RY V in
    let Y := yv_Y (y_A st) V RY in
    let A := yv_A Y V (y_means st) in
    if D =? 1 then Raise IndexError else
    let r := bouch_rhs (fun d k => vsum F (fun f => X d f * A k f) * p k)%R S (y_lxi st) (y_s st) in
    let means := fun d k => (/ (p k + n d * y_lxi st d k) * r d k)%R in
    let varcs := fun d k => (1 / (n d * y_lxi st d k + p k))%R in
    Ok {| y_A := A; y_Y := Y; y_RY := RY; y_V := V; y_sigT := diag c; y_vocab := vocab; y_means := means;
          y_varcs := varcs; y_lxi := fun d k => (2 * lxi_of means varcs (y_s st) d k)%R; y_s := y_s st |}.
  (** Line 220. *)
  Definition yv_start (st : yv) : yv :=
    {| y_A := y_A st; y_Y := y_Y st; y_RY := y_RY st; y_V := y_V st; y_sigT := y_sigT st; y_vocab := y_vocab st;
       y_means := y_means st; y_varcs := y_varcs st; y_lxi := y_lxi st; y_s := fun _ => 0%R |}.
  Definition yv_train (debug : bool) (perp : yv -> R) (logFrequency iterations : nat) (st : yv) : res yv :=
    log_train (yv_iter debug) perp 51 logFrequency iterations (yv_start st).

  (** ** stm_yv.py, query, lines 326-397 *)
  (** Lines 365-382. *)
  Definition yquery_iter (isigT mu vocab : mat) (q : bquery) : bquery :=
    let S := token_weights K T W (exp_means K (bq_means q)) vocab in
    let r := fun d k => ((2 * bq_s q d * bq_lxi q d k - 5 / 10) * n d + S d k + vsum K (fun j => mu d j * isigT j k))%R in
    let means := fun d k => (/ (isigT k k + n d * 2 * bq_lxi q d k) * r d k)%R in
    let varcs := fun d k => (1 / (2 * n d * bq_lxi q d k + isigT k k))%R in
    {| bq_means := means; bq_varcs := varcs; bq_lxi := lxi_of means varcs (bq_s q); bq_s := bq_s q |}.
  (** The debugging output of line 375 fails as that of the training does. *)
  Definition yv_query (debug : bool) (perp : mat -> R) (last : R) (iterations : nat) (A sigT vocab : mat) (q : bquery) : res bquery :=
    let isigT := inv sigT in
    if iterations =? 0 then Ok q else
    if D =? 1 then Raise IndexError else
    if debug then Raise TypeError else
    Ok (bquery_loop (yquery_iter isigT (stm_mean F X A) vocab) perp 0 iterations last q).
End bouch.
