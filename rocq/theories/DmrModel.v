(** * Model of Dirichlet-multinomial regression: /repo/sidetopics/model/dmr.py and
    dmr_fast.pyx.

    The sampler differs from the one of lda_gibbs_fast.pyx only in the priors, which
    depend on the document, and in the array of samples; the visit of one document
    (dmr_fast.pyx lines 232-270) is [doc_sweep] of GibbsModel with the priors of the
    document, with the same simplifications.  The 16-bit counts per document do not
    wrap for the lengths that train accepts (line 184); query does not check. *)
From Coq Require Import List ZArith QArith Arith Bool.
From Verif Require Import Base EvalSpec CvbModel GibbsModel.
Import ListNotations.
Open Scope nat_scope.

(** [d_taken] is trueSampleCount, [d_buf i d k] is n_dk_samples[d,k,i]. *)
Record dstate := mkD
  { d_g : gst; d_topic : nat -> nat -> Q; d_vocab : nat -> nat -> Q; d_buf : nat -> nat -> nat -> Z; d_taken : nat }.

(** Lines 157-170 of dmr.py [newTrainPlan]. *)
Record dplan := mkDp { dp_iterations : Z; dp_burn : Z; dp_thin : Z; dp_interval : Z }.
Definition dmr_plan (iterations burnIn thin interval : Z) : dplan :=
  let thin := if (thin <? 0)%Z
              then if (iterations <=? 500)%Z then 5%Z else if (iterations <=? 1000)%Z then 10%Z else 50%Z
              else thin in
  let burn := if (burnIn <? 0)%Z then (iterations / 4)%Z else burnIn in
  let iters := if (burnIn <? 0)%Z then (iterations + burn)%Z else iterations in
  mkDp iters burn thin (if (interval <? 0)%Z then (thin * 10)%Z else interval).

Section Dmr.
  Context (K T F : nat) (w : nat -> nat) (lens : list nat) (X : nat -> nat -> Q) (b : nat -> Q).
  Context (special : gst -> nat -> nat -> Z).
  Let D := length lens.

  (** X.dot(weights.T), lines 199, 209 and 342. *)
  Definition dmr_alphas (weights : nat -> nat -> Q) (d k : nat) : Q :=
    qsum (fun f => X d f * weights k f)%Q (seq 0 F).

  Section Sample.
    (** [cap] is the length of the last axis of n_dk_samples. *)
    Context (isQuery : bool) (cap : nat) (start : nat -> nat -> nat) (u : nat -> nat -> nat -> Q)
            (alphas : nat -> nat -> Q).

    (** dmr_fast.pyx lines 227-270. *)
    Definition dmr_sweep (sw : nat) (s : gst) : res gst :=
      do os <- fold_left (fun ros d =>
                 do os <- ros;
                 do s' <- doc_sweep K T w lens (alphas d) b isQuery special start u sw d (fst os) (snd os);
                 Ok (fst os + len_ lens d, s')) (seq 0 D) (Ok (0, s));
      Ok (snd os).

    (** Lines 280-292; without bounds checks a slot after the last is memory of
        something else. *)
    Definition dmr_record (g : gst) (s : dstate) : res dstate :=
      if (cap <=? d_taken s) && negb (D =? 0) && negb (K =? 0) then Raise MemoryOOB
      else Ok (mkD g
        (fun d k => d_topic s d k + (inject_Z (g_dk g d k) + alphas d k) / (qnat (len_ lens d) + qsum (alphas d) (seq 0 K)))%Q
        (if isQuery then d_vocab s
         else fun k v => (d_vocab s k v + (inject_Z (g_kv g k v) + b v) / (inject_Z (g_k g k) + qsum b (seq 0 T)))%Q)
        (fun i d k => if i =? d_taken s then g_dk g d k else d_buf s i d k)
        (d_taken s + 1)).

    (** Lines 172-301 [sample]. *)
    Definition dmr_step (thin : nat) (s : dstate) (sw : nat) : res dstate :=
      do g <- dmr_sweep sw (d_g s);
      if thin =? 0 then Raise ZeroDivisionError
      else if (sw + 1) mod thin =? 0 then dmr_record g s
      else Ok (mkD g (d_topic s) (d_vocab s) (d_buf s) (d_taken s)).
    Definition dmr_sample (count : Z) (thin : nat) (s : dstate) : res dstate :=
      fold_left (fun rs sw => do s <- rs; dmr_step thin s sw) (seq 0 (Z.to_nat count))
                (Ok (mkD (d_g s) (d_topic s) (d_vocab s) (d_buf s) 0)).
  End Sample.

  (** Lines 190 and 329: the length of the array of samples. *)
  Definition dmr_capacity (p : dplan) : res nat :=
    if (dp_thin p =? 0)%Z then Raise ZeroDivisionError
    else let n := ((dp_iterations p - dp_burn p) / dp_thin p)%Z in
         if (n <? 0)%Z then Raise ValueError else Ok (Z.to_nat n).
  (** The number of passes of the loop of line 208, for a positive interval. *)
  Definition dmr_rounds (p : dplan) : nat :=
    Z.to_nat ((dp_iterations p - dp_burn p + dp_interval p - 1) / dp_interval p).

  (** The results of train and query: the sampler's state, the weights and
      sample_count. *)
  Record dresult := mkDr { dr_state : dstate; dr_weights : nat -> nat -> Q; dr_count : nat }.

  (** Lines 208-221.  [opt] is updateWeights (lines 232-246), given the array of
      samples, the number of samples and the old weights. *)
  Section Rounds.
    Context (opt : (nat -> nat -> nat -> Z) -> nat -> (nat -> nat -> Q) -> nat -> nat -> Q) (r : nat -> rng).
    Fixpoint dmr_loop (cap : nat) (p : dplan) (n i : nat) (st : dresult) : res dresult :=
      match n with
      | 0 => Ok st
      | S n' =>
        do s <- dmr_sample false cap (r_start (r i)) (r_u (r i)) (dmr_alphas (dr_weights st))
                  (dp_interval p) (Z.to_nat (dp_thin p)) (dr_state st);
        let c := dr_count st + d_taken s in
        dmr_loop cap p n' (S i) (mkDr s (opt (d_buf s) c (dr_weights st)) c)
      end.

    Definition zero3 : nat -> nat -> nat -> Z := fun _ _ _ => 0%Z.
    (** Lines 173-228 [train]; [r0] are the random numbers of the burn-in. *)
    Definition dmr_train (r0 : rng) (p : dplan) (weights : nat -> nat -> Q) (z : nat -> nat) : res dresult :=
      if D =? 0 then Raise ValueError
      else if existsb (fun n => (65536 <=? Z.of_nat n)%Z) lens then Raise AssertionError
      else
        do cap <- dmr_capacity p;
        let s0 := mkD (sum_suff_stats w lens (mkG z (fun _ _ => 0%Z) (fun _ _ => 0%Z) (fun _ => 0%Z))) zeroK zeroK zero3 0 in
        do s1 <- dmr_sample false cap (r_start r0) (r_u r0) (dmr_alphas weights) (dp_burn p) (Z.to_nat (dp_burn p + 1)) s0;
        if (dp_interval p =? 0)%Z then Raise ValueError
        else dmr_loop cap p (dmr_rounds p) 0 (mkDr s1 weights 0).
  End Rounds.

  (** Lines 315-354 [query]: [vocab] and [samples] are vocabSum and numSamples of the
      model.  The model that is returned has the same vocabSum and the number of
      samples of the query. *)
  Definition dmr_query (r0 r1 : rng) (p : dplan) (weights : nat -> nat -> Q) (vocab : nat -> nat -> Q) (samples : nat)
      (z : nat -> nat) : res dresult :=
    do cap <- dmr_capacity p;
    match averaged vocab samples with
    | None => Raise OtherError           (* NaN cast to int: arbitrary counts *)
    | Some wd =>
        let nkv := fun k v => truncQ (wd k v * 1000000)%Q in
        let nk := fun k => sumZ (map (nkv k) (seq 0 T)) in
        let s0 := mkD (sum_suff_stats w lens (mkG z (fun _ _ => 0%Z) nkv nk)) zeroK vocab zero3 0 in
        do s1 <- dmr_sample true cap (r_start r0) (r_u r0) (dmr_alphas weights) (dp_burn p) (Z.to_nat (dp_burn p + 1)) s0;
        do s2 <- dmr_sample true cap (r_start r1) (r_u r1) (dmr_alphas weights) (dp_iterations p) (Z.to_nat (dp_thin p)) s1;
        Ok (mkDr s2 weights (d_taken s2))
    end.

  (** Lines 358-373 [topicDists], [wordDists]. *)
  Definition dmr_topic_dists (r : dresult) := averaged (d_topic (dr_state r)) (dr_count r).
  Definition dmr_word_dists (r : dresult) := averaged (d_vocab (dr_state r)) (dr_count r).
End Dmr.
