(** * Properties of the CVB and CVB0 trainers (C37-C40, C78-C82). *)
From Coq Require Import List ZArith QArith Arith Bool Lia Lqa Permutation.
From Verif Require Import Base EvalSpec EvalProofs CvbModel CvbSpec CvbProofs CvbMore CvbTokens.
Import ListNotations.
Open Scope nat_scope.

Lemma firstn_repeat {A} (x : A) a b : a <= b -> firstn a (repeat x b) = repeat x a.
Proof. revert b; induction a; intros [|b] H; cbn [repeat firstn]; try reflexivity; [lia|]. rewrite IHa by lia. reflexivity. Qed.
Lemma sumZ_pos_ex l : (0 < sumZ (map (Z.max 0) l))%Z -> exists n, In n l /\ (0 < n)%Z.
Proof.
  induction l as [|x l IH]; cbn [map sumZ]; [lia|]. intros H. destruct (Z.ltb_spec 0 x).
  - exists x. split; [left; reflexivity|assumption].
  - rewrite Z.max_l, Z.add_0_l in H by assumption. destruct (IH H) as (n & Hn & Hp). exists n. split; [right; exact Hn|exact Hp].
Qed.

(** ** C37: iterations carried out *)

(** No logging, or a logging frequency between 1 and the iteration count: the
    calls add up to the iterations asked for, unless training converged, which
    takes at least three measurements, a positive convergence test and more
    than [minIt] iterations; then fewer are carried out. *)
Theorem C37_segments_add_up minIt iterations lf stop :
  (0 <= iterations)%Z -> (0 <= lf <= iterations)%Z ->
  let s := schedule minIt iterations lf stop in
  (finished s = false -> executed s = iterations) /\
  (finished s = true -> (executed s <= iterations)%Z /\ (minIt < executed s)%Z /\
     exists j, stop j = true /\ 2 <= j /\ (executed s = Z.of_nat (S j) * lf)%Z).
Proof.
  intros Hit Hlf. cbv zeta. unfold schedule.
  set (n := Z.to_nat (log_points iterations lf - 1)).
  destruct (seg_steps minIt lf stop n) as (m & Hm & Hc & Hb & Hf & Ht).
  set (s0 := fold_left (seg_step minIt lf stop) (seq 0 n) (mkSched [] [] false)) in *.
  assert (Hn : (Z.of_nat n * lf + remainder_iters iterations lf = iterations)%Z /\ (0 <= remainder_iters iterations lf)%Z).
  { unfold n, remainder_iters, log_points. destruct (Z.eqb_spec lf 0) as [->|Hne].
    - split; lia.
    - assert (1 <= iterations / lf)%Z by (apply Z.div_le_lower_bound; lia).
      pose proof (Z.mul_div_le iterations lf ltac:(lia)).
      rewrite Z2Nat.id by lia. split; nia. }
  destruct Hn as [Hn1 Hn2].
  destruct (finished s0) eqn:E.
  - split; [congruence|]. intros _. specialize (Ht eq_refl) as (H3 & H4 & H5).
    unfold executed. rewrite Hc.
    replace (map (Z.max 0) (repeat lf m)) with (repeat lf m).
    2:{ clear -Hlf. induction m; cbn [repeat map]; [reflexivity|]. rewrite <- IHm. f_equal. lia. }
    rewrite sumZ_repeat.
    assert (Z.of_nat m * lf <= Z.of_nat n * lf)%Z by (apply Z.mul_le_mono_nonneg_r; lia).
    assert (Hm1 : (Z.of_nat (m - 1) = Z.of_nat m - 1)%Z) by lia.
    split; [lia|]. split; [nia|]. exists (m - 1). split; [exact H5|]. split; [lia|].
    replace (S (m - 1)) with m by lia. reflexivity.
  - split; [|discriminate]. intros _. specialize (Hf eq_refl). subst m.
    unfold executed. cbn [calls]. rewrite Hc, map_app.
    replace (map (Z.max 0) (repeat lf n)) with (repeat lf n).
    2:{ clear -Hlf. induction n; cbn [repeat map]; [reflexivity|]. rewrite <- IHn. f_equal. lia. }
    rewrite sumZ_app, sumZ_repeat. cbn [map sumZ]. lia.
Qed.
Example C37_case :
  executed (schedule 50 105 10 (fun _ => false)) = 105%Z /\
  calls (schedule 50 25 10 (fun _ => false)) = [10%Z; 15%Z] /\
  executed (schedule 50 105 10 (fun j => 7 <=? j)) = 80%Z.
Proof. repeat split; reflexivity. Qed.

(** A logging frequency above the iteration count: [iterations + logFrequency]
    iterations are carried out. *)
Theorem C37_large_frequency_runs_longer minIt iterations lf stop :
  (0 <= iterations < lf)%Z ->
  executed (schedule minIt iterations lf stop) = (iterations + lf)%Z.
Proof.
  intros H. unfold schedule, remainder_iters, log_points.
  destruct (Z.eqb_spec lf 0); [lia|]. rewrite Z.div_small by lia.
  change (Z.to_nat (0 - 1)) with 0. cbn [seq fold_left finished calls app].
  unfold executed. cbn [calls map sumZ]. lia.
Qed.
Theorem C37_requested_iterations_refuted :
  exists iterations lf, (0 < iterations)%Z /\ (0 < lf)%Z /\
    forall minIt stop, executed (schedule minIt iterations lf stop) <> iterations.
Proof.
  exists 5%Z, 10%Z. split; [lia|]. split; [lia|]. intros. rewrite C37_large_frequency_runs_longer by lia. lia.
Qed.

(** The variational trainers use the same segments.  [first_stop n stop j]: the
    first of the [n] convergence tests to succeed is number [j]. *)
Definition first_stop (n : nat) (stop : nat -> bool) (j : nat) : Prop :=
  j < n /\ stop j = true /\ forall i, i < j -> stop i = false.
Lemma vb_loop_ok lf stop n a x : (0 <= lf)%Z ->
  (exists j, vb_loop true lf stop (seq a n) x = Ok ((x + Z.of_nat (S j) * lf)%Z, true) /\
             j < n /\ stop (a + j) = true /\ forall i, i < j -> stop (a + i) = false) \/
  (vb_loop true lf stop (seq a n) x = Ok ((x + Z.of_nat n * lf)%Z, false) /\ forall i, i < n -> stop (a + i) = false).
Proof.
  intros Hlf. revert a x. induction n as [|n IH]; intros a x; cbn [seq vb_loop negb].
  - right. split; [f_equal; f_equal; lia|lia].
  - rewrite Z.max_r by lia. destruct (stop a) eqn:Ea.
    + left. exists 0. split; [f_equal; f_equal; lia|]. split; [lia|]. rewrite Nat.add_0_r. split; [exact Ea|lia].
    + destruct (IH (S a) (x + lf)%Z) as [(j & E & Hj & Hs & Hb)|(E & Hb)].
      * left. exists (S j). split; [rewrite E; f_equal; f_equal; lia|]. split; [lia|].
        replace (a + S j) with (S a + j) by lia. split; [exact Hs|].
        intros [|i] Hi; [rewrite Nat.add_0_r; exact Ea|]. replace (a + S i) with (S a + i) by lia. apply Hb. lia.
      * right. split; [rewrite E; f_equal; f_equal; lia|].
        intros [|i] Hi; [rewrite Nat.add_0_r; exact Ea|]. replace (a + S i) with (S a + i) by lia. apply Hb. lia.
Qed.
Lemma first_stop_unique n stop j j' : first_stop n stop j -> first_stop n stop j' -> j = j'.
Proof.
  intros (A & B & C) (A' & B' & C'). destruct (Nat.lt_trichotomy j j') as [H|[H|H]]; [|exact H|].
  - rewrite (C' j H) in B. discriminate.
  - rewrite (C j' H) in B'. discriminate.
Qed.

(** Batch training in single precision carries out the iterations asked for,
    or stops at the first test that succeeds. *)
Theorem C37_vb_single iterations lf stop : (0 <= iterations)%Z -> (0 <= lf)%Z -> lf = 0%Z \/ (lf <= iterations)%Z ->
  exists n, vb_schedule false false iterations lf stop = Ok n /\
    ((n = iterations /\ forall i, (Z.of_nat (S i) < log_points iterations lf)%Z -> stop i = false) \/
     exists j, first_stop (Z.to_nat (log_points iterations lf - 1)) stop j /\ n = (Z.of_nat (S j) * lf)%Z /\ (n <= iterations)%Z).
Proof.
  intros Hit Hlf Hle. unfold vb_schedule. cbn [Nat.eqb iterate_arity negb].
  assert (Hlp : (0 < log_points iterations lf)%Z).
  { unfold log_points. destruct (Z.eqb_spec lf 0); [lia|]. apply Z.div_str_pos. lia. }
  assert (Hmul : (lf * log_points iterations lf <= iterations)%Z).
  { unfold log_points. destruct (Z.eqb_spec lf 0); [lia|]. apply Z.mul_div_le. lia. }
  replace (_ <? 0)%Z with false by lia. replace (_ =? 0)%Z with false by lia.
  destruct (vb_loop_ok lf stop (Z.to_nat (log_points iterations lf - 1)) 0 0 Hlf) as [(j & E & Hj & Hs & Hb)|(E & Hb)];
    rewrite E; cbn [bind fst snd].
  - eexists. split; [reflexivity|]. right. exists j. split; [split; [exact Hj|split; [exact Hs|exact Hb]]|].
    split; [lia|]. nia.
  - eexists. split; [reflexivity|]. left. unfold remainder_iters. split; [nia|]. intros i Hi. apply Hb. lia.
Qed.
(** Batch training in double precision never gets to its end. *)
Theorem C37_vb_double_refuted :
  exists iterations lf, (0 < lf <= iterations)%Z /\ forall stop, vb_schedule false true iterations lf stop = Raise TypeError.
Proof. exists 100%Z, 10%Z. split; [lia|]. reflexivity. Qed.
Theorem C37_vb_double_never_runs iterations lf stop : (0 <= log_points iterations lf)%Z ->
  vb_schedule false true iterations lf stop = Raise TypeError.
Proof.
  intros H. unfold vb_schedule. replace (_ <? 0)%Z with false by lia. cbn [Nat.eqb iterate_arity negb].
  destruct (seq 0 _); reflexivity.
Qed.
(** Stochastic training in single precision runs exactly when there is a single
    segment; in double precision only when a convergence test succeeds. *)
Theorem C37_svb_single_iff iterations lf stop n : (0 <= iterations)%Z ->
  vb_schedule true false iterations lf stop = Ok n <->
  n = iterations /\ (lf = 0 \/ iterations / lf = 1)%Z.
Proof.
  intros Hit. unfold vb_schedule. cbn [Nat.eqb iterate_arity negb]. unfold remainder_iters, log_points.
  destruct (Z.eqb_spec lf 0) as [->|Hne].
  - change (Z.to_nat (1 - 1)) with 0. change (1 <? 0)%Z with false. change (1 =? 0)%Z with false. cbn [seq vb_loop bind fst snd].
    replace (0 + Z.max 0 (iterations - 0 * (1 - 1)))%Z with iterations by lia.
    split; [intros [= <-]; auto|intros [-> _]; reflexivity].
  - destruct (Z.ltb_spec (iterations / lf) 0); [split; [discriminate|lia]|].
    destruct (Z.ltb_spec 1 (iterations / lf)).
    { destruct (Z.to_nat (iterations / lf - 1)) eqn:E; [lia|]. cbn. split; [discriminate|lia]. }
    replace (Z.to_nat (iterations / lf - 1)) with 0 by lia. cbn [seq vb_loop bind fst snd].
    destruct (Z.eqb_spec (iterations / lf) 0); [split; [discriminate|lia]|].
    assert (E : (iterations / lf = 1)%Z) by lia. rewrite E.
    replace (0 + Z.max 0 (iterations - lf * (1 - 1)))%Z with iterations by lia.
    split; [intros [= <-]; auto|intros [-> _]; reflexivity].
Qed.
Theorem C37_svb_double_iff iterations lf stop n : (0 <= lf)%Z -> (0 <= iterations)%Z ->
  vb_schedule true true iterations lf stop = Ok n <->
  exists j, first_stop (Z.to_nat (log_points iterations lf - 1)) stop j /\ n = (Z.of_nat (S j) * lf)%Z.
Proof.
  intros Hlf Hit. unfold vb_schedule. cbn [Nat.eqb iterate_arity negb].
  assert (0 <= log_points iterations lf)%Z.
  { unfold log_points. destruct (Z.eqb_spec lf 0); [lia|]. apply Z.div_pos; lia. }
  replace (_ <? 0)%Z with false by lia.
  destruct (vb_loop_ok lf stop (Z.to_nat (log_points iterations lf - 1)) 0 0 Hlf) as [(j & E & Hj & Hs & Hb)|(E & Hb)];
    rewrite E; cbn [bind fst snd].
  - rewrite Z.add_0_l. split.
    + intros H0. exists j. split; [split; [exact Hj|split; [exact Hs|exact Hb]]|]. congruence.
    + intros (j' & F & ->). rewrite (first_stop_unique _ _ j j' ltac:(split; [exact Hj|split; [exact Hs|exact Hb]]) F). reflexivity.
  - split; [discriminate|]. intros (j & (F1 & F2 & _) & _). specialize (Hb j F1). cbn [Nat.add] in Hb. congruence.
Qed.
Theorem C37_svb_default_plan_refuted :
  (* the default plan: 100 iterations, logging every 10 *)
  exists iterations lf, (0 < lf <= iterations)%Z /\
    (forall stop, vb_schedule true false iterations lf stop = Raise TypeError) /\
    vb_schedule true true iterations lf (fun _ => false) = Raise TypeError.
Proof. exists 100%Z, 10%Z. split; [lia|]. split; reflexivity. Qed.
Example C37_svb_case : vb_schedule true false 100 0 (fun _ => false) = Ok 100%Z /\ vb_schedule true false 100 100 (fun _ => false) = Ok 100%Z /\
  vb_schedule true false 5 10 (fun _ => false) = Raise IndexError /\ vb_schedule true true 100 10 (fun j => j =? 3) = Ok 40%Z /\
  vb_schedule false false 105 10 (fun _ => false) = Ok 105%Z.
Proof. repeat split; reflexivity. Qed.

(** ** C82: the iteration numbers logged *)
Theorem C82_logged_numbers minIt iterations lf stop :
  (0 <= iterations)%Z -> (0 <= lf <= iterations)%Z ->
  let s := schedule minIt iterations lf stop in
  finished s = false ->
  length (bound_iters s) = length (calls s) /\
  last (bound_iters s) 0%Z = (iterations - 1)%Z /\
  forall i, S i < length (calls s) -> nth_error (bound_iters s) i = Some (Z.of_nat i * lf)%Z /\
    sumZ (firstn (S i) (calls s)) = (Z.of_nat (S i) * lf)%Z.
Proof.
  intros Hit Hlf. cbv zeta. unfold schedule.
  set (n := Z.to_nat (log_points iterations lf - 1)).
  destruct (seg_steps minIt lf stop n) as (m & Hm & Hc & Hb & Hf & Ht).
  set (s0 := fold_left (seg_step minIt lf stop) (seq 0 n) (mkSched [] [] false)) in *.
  destruct (finished s0) eqn:E; [congruence|]. intros _. specialize (Hf eq_refl). subst m.
  cbn [bound_iters calls]. rewrite Hb, Hc, last_last, !app_length, map_length, seq_length, repeat_length. cbn [length].
  split; [reflexivity|]. split; [reflexivity|]. intros i Hi. split.
  - rewrite nth_error_app1 by (rewrite map_length, seq_length; lia).
    rewrite nth_error_map, nth_error_seq0 by lia. reflexivity.
  - rewrite firstn_app, repeat_length. replace (S i - n) with 0 by lia. rewrite firstn_O, app_nil_r.
    rewrite firstn_repeat by lia. apply sumZ_repeat.
Qed.
(** So the number logged with a measurement (an index counted from 0) is not
    that of the last iteration carried out. *)
Theorem C82_logged_number_is_last_iteration_refuted :
  exists minIt iterations lf stop i b,
    (0 < lf <= iterations)%Z /\
    let s := schedule minIt iterations lf stop in
    nth_error (bound_iters s) i = Some b /\ b <> (sumZ (firstn (S i) (calls s)) - 1)%Z.
Proof.
  exists 50%Z, 100%Z, 10%Z, (fun _ => false), 2, 20%Z. split; [lia|]. cbv zeta. split; [reflexivity|].
  vm_compute. discriminate.
Qed.

(** ** C38: counts match responsibilities *)
Section C38.
  Context (c : corpus) (K T : nat) (tp vp : Q) (special : qst -> nat -> nat -> nat -> option Q).
  Context (bkt : nat -> nat -> Q) (bk : nat -> Q).
  Notation matches s := (tallies (ndocs c) (words c) (doclen c) K bkt bk (q_dk s) (q_kt s) (q_k s) (q_z s)).

  (** After any number of sweeps, whatever the priors (zero, negative) and
      whether or not a sweep was abandoned. *)
  Theorem C38_counts_match iterations s :
    matches s -> matches (fst (iterate c K T tp vp special iterations s)).
  Proof. apply iterate_inv. Qed.

  (** And at every point in between: after [iterations] sweeps, the tokens
      [done] of the next one and the topics [ks] of the current token. *)
  Theorem C38_counts_match_at_every_point iterations s done d n rest ks s1 s2 :
    matches s -> tokens c = done ++ (d, n) :: rest ->
    iterate c K T tp vp special iterations s = s1 ->
    fold_left (token_step c K T tp vp special) done s1 = s2 ->
    matches (fst (fold_left (topic_step c (mems c K T tp vp special (fst s2) d n) d n) ks s2)).
  Proof.
    intros HI HT <- <-.
    assert (Hdn : In (d, n) (tokens c)) by (rewrite HT; apply in_elt).
    apply tokens_in in Hdn as [Hd Hn].
    apply topic_steps_inv; [exact Hd|exact Hn|]. apply tokens_steps_inv; [|apply iterate_inv; exact HI].
    intros x Hx. rewrite HT. apply in_or_app. left. exact Hx.
  Qed.
End C38.

(** The counts that training starts with match the initial responsibilities. *)
Theorem C38_initial_counts_match c maxN K z :
  (forall d, d < ndocs c -> doclen c d <= maxN) ->
  let s := calculate_counts c maxN K z in
  tallies (ndocs c) (words c) (doclen c) K (fun _ _ => 0%Q) (fun _ => 0%Q) (q_dk s) (q_kt s) (q_k s) (q_z s) /\
  (forall d n k, n < doclen c d -> q_z s d n k = z d n k).
Proof.
  intros H. split; [apply calculate_counts_inv; exact H|].
  intros d n k Hn. cbn. unfold zero_tail. replace (n <? doclen c d) with true by (symmetry; apply Nat.ltb_lt; exact Hn).
  reflexivity.
Qed.

(** With positive priors, responsibilities that are not negative and model
    counts that are not negative no sweep is abandoned, and after at least one
    sweep every token's responsibilities form a distribution. *)
Theorem C38_positive_priors_never_abort c K T tp vp special bkt bk iterations s :
  (0 < tp)%Q -> (0 < vp)%Q -> 0 < K -> 0 < T ->
  (forall k t, k < K -> (0 <= bkt k t)%Q) -> (forall k, k < K -> (0 <= bk k)%Q) ->
  tallies (ndocs c) (words c) (doclen c) K bkt bk (q_dk s) (q_kt s) (q_k s) (q_z s) ->
  nonneg_resp (ndocs c) (doclen c) K (q_z s) ->
  exists s', iterate c K T tp vp special iterations s = (s', true) /\
    nonneg_resp (ndocs c) (doclen c) K (q_z s') /\
    (0 < iterations -> distributions (ndocs c) (doclen c) K (q_z s')).
Proof.
  intros Htp Hvp HK HT Hb1 Hb2 HI HP.
  destruct (iterate_good c K T tp vp special bkt bk Htp Hvp HK HT Hb1 Hb2 iterations s HI HP) as (s' & E & _ & HP' & Hn & _).
  exists s'. split; [exact E|]. split; [exact HP'|].
  intros H0 d n Hd Hn'. destruct (Hn H0 d n Hd Hn') as [Ha Hb]. split; [|exact Hb].
  intros k Hk. apply Qlt_le_weak, Ha, Hk.
Qed.

(** Two documents, "0 1 1" and "2", two topics. *)
Definition ex_corpus : corpus :=
  mkCorpus 2 (fun d n => nth n (nth d [[0;1;1];[2]] []) 0) (fun d => nth d [3;1] 0).
Definition ex_z : nat -> nat -> nat -> Q := fun d n k => if k =? 0 then (1#4)%Q else (3#4)%Q.
Definition ex_s0 : qst := calculate_counts ex_corpus 3 2 ex_z.
Definition no_special : qst -> nat -> nat -> nat -> option Q := fun _ _ _ _ => None.
Definition show (s : qst) : list (list Q) * list (list Q) * list Q :=
  (map (fun d => map (fun k => Qred (q_dk s d k)) (seq 0 2)) (seq 0 2),
   map (fun k => map (fun t => Qred (q_kt s k t)) (seq 0 3)) (seq 0 2),
   map (fun k => Qred (q_k s k)) (seq 0 2)).
Example C38_case_initial :
  show ex_s0 = ([[3#4; 9#4]; [1#4; 3#4]], [[1#4; 1#2; 1#4]; [3#4; 3#2; 3#4]], [1; 3])%Q.
Proof. vm_compute. reflexivity. Qed.
Example C38_case_sweep :
  let r := iterate ex_corpus 2 3 (1#2) (1#2) no_special 1 ex_s0 in
  snd r = true /\ Qeq_bool (q_z (fst r) 0 0 0 + q_z (fst r) 0 0 1) 1 = true /\
  Qeq_bool (q_z (fst r) 0 0 0) (1#4) = false.
Proof. vm_compute. auto. Qed.
(** A sweep abandoned at the first topic because of a negative prior. *)
Example C38_case_abort :
  snd (iterate ex_corpus 2 3 (-1) (1#2) no_special 1 ex_s0) = false.
Proof. vm_compute. reflexivity. Qed.
Example C38_hypotheses_met :
  tallies (ndocs ex_corpus) (words ex_corpus) (doclen ex_corpus) 2 (fun _ _ => 0%Q) (fun _ => 0%Q)
    (q_dk ex_s0) (q_kt ex_s0) (q_k ex_s0) (q_z ex_s0) /\
  nonneg_resp (ndocs ex_corpus) (doclen ex_corpus) 2 (q_z ex_s0) /\
  tokens ex_corpus = [(0, 0); (0, 1)] ++ (0, 2) :: [(1, 0)].
Proof.
  split; [|split].
  - apply C38_initial_counts_match. intros d Hd. cbn in Hd. destruct d as [|[|d]]; cbn; lia.
  - intros d n k _ _ _. unfold ex_s0, calculate_counts, zero_tail, ex_z. cbn [q_z].
    destruct (n <? _); [|apply Qle_refl]. destruct (k =? 0); discriminate.
  - reflexivity.
Qed.

(** ** C39: querying *)
Section C39.
  Context (c : corpus) (K T : nat) (tp vp : Q) (special : qst -> nat -> nat -> nat -> option Q).
  Context (Htp : (0 < tp)%Q) (Hvp : (0 < vp)%Q) (HK : 0 < K) (HT : 0 < T).
  Notation own s := (tallies (ndocs c) (words c) (doclen c) K (fun _ _ => 0%Q) (fun _ => 0%Q) (q_dk s) (q_kt s) (q_k s) (q_z s)).

  Definition model_ok (m : option mst) : Prop :=
    match m with
    | None => True
    | Some m => (forall k t, k < K -> (0 <= m_kt m k t)%Q) /\ (forall k, k < K -> (0 <= m_k m k)%Q)
    end.

  (** The state after the calls, before the model counts are taken out. *)
  Lemma train_core minIt iterations lf stop a m s :
    model_ok m -> (forall k, k < K -> (0 < a k)%Q) -> own s ->
    nonneg_resp (ndocs c) (doclen c) K (q_z s) ->
    let s1 := run_calls c K T tp vp special a (calls (schedule minIt iterations lf stop)) (add_model m s) in
    inv c K (fun k t => 0 + m_kt_of m k t)%Q (fun k => 0 + m_k_of m k)%Q s1 /\
    nonneg_resp (ndocs c) (doclen c) K (q_z s1) /\
    ((exists n, In n (calls (schedule minIt iterations lf stop)) /\ (0 < n)%Z) ->
       distributions (ndocs c) (doclen c) K (q_z s1)).
  Proof.
    intros Hm Ha HI HP. cbv zeta.
    destruct (run_calls_good c K T tp vp special (fun k t => 0 + m_kt_of m k t)%Q (fun k => 0 + m_k_of m k)%Q
      Htp Hvp HK HT) with (a := a) (cs := calls (schedule minIt iterations lf stop)) (s := add_model m s)
      as (H1 & H2 & H3 & _).
    - intros k t Hk. destruct m as [m|]; cbn [m_kt_of]; [|lra]. destruct Hm as [Hm _]. specialize (Hm k t Hk). lra.
    - intros k Hk. destruct m as [m|]; cbn [m_k_of]; [|lra]. destruct Hm as [_ Hm]. specialize (Hm k Hk). lra.
    - apply add_model_inv. exact HI.
    - rewrite add_model_z. exact HP.
    - exact Ha.
    - split; [exact H1|]. split; [exact H2|]. intros He d n Hd Hn. destruct (H3 He d n Hd Hn) as [G1 G2].
      split; [|exact G2]. intros k Hk. apply Qlt_le_weak, G1, Hk.
  Qed.

  (** A query returns the model it was given, and its own counts are those of
      its own responsibilities only. *)
  Theorem C39_query_leaves_model minIt iterations lf stop a m s m' s' :
    model_ok m -> (forall k, k < K -> (0 < a k)%Q) -> own s ->
    nonneg_resp (ndocs c) (doclen c) K (q_z s) ->
    train c K T tp vp special minIt iterations lf stop true a m s = Ok (m', s') ->
    m' = m /\ own s' /\ nonneg_resp (ndocs c) (doclen c) K (q_z s') /\
    ((exists n, In n (calls (schedule minIt iterations lf stop)) /\ (0 < n)%Z) ->
       distributions (ndocs c) (doclen c) K (q_z s')).
  Proof.
    intros Hm Ha HI HP. unfold train. destruct (existsb _ _); [discriminate|]. cbv zeta.
    destruct (train_core minIt iterations lf stop a m s Hm Ha HI HP) as (H1 & H2 & H3).
    intros [= <- <-]. split; [reflexivity|]. rewrite sub_model_z.
    split; [|split; [exact H2|exact H3]].
    pose proof (sub_model_inv c K m _ (fun _ _ => 0%Q) (fun _ => 0%Q) H1) as H. rewrite <- (sub_model_z m). exact H.
  Qed.

  (** A training run adds the documents' totals to the counts of the model. *)
  Theorem C39_training_adds_counts minIt iterations lf stop a m s m' s' :
    model_ok m -> (forall k, k < K -> (0 < a k)%Q) -> own s ->
    nonneg_resp (ndocs c) (doclen c) K (q_z s) ->
    train c K T tp vp special minIt iterations lf stop false a m s = Ok (m', s') ->
    exists m1, m' = Some m1 /\
      (forall k t, k < K -> (m_kt m1 k t == m_kt_of m k t + word_total (ndocs c) (words c) (doclen c) (q_z s') k t)%Q) /\
      (forall k, k < K -> (m_k m1 k == m_k_of m k + topic_total (ndocs c) (doclen c) (q_z s') k)%Q) /\
      (let D0 := match m with Some m => m_docs m | None => 0 end in
       m_docs m1 = D0 + ndocs c /\
       (forall d k, d < D0 -> m_dk m1 d k = match m with Some m => m_dk m d k | None => 0%Q end) /\
       (forall d k, d < ndocs c -> k < K -> (m_dk m1 (D0 + d) k == doc_total (doclen c) (q_z s') d k)%Q)) /\
      nonneg_resp (ndocs c) (doclen c) K (q_z s') /\
      q_kt s' = m_kt m1 /\ q_k s' = m_k m1 /\
      ((exists n, In n (calls (schedule minIt iterations lf stop)) /\ (0 < n)%Z) ->
         distributions (ndocs c) (doclen c) K (q_z s')).
  Proof.
    intros Hm Ha HI HP. unfold train. destruct (existsb _ _); [discriminate|]. cbv zeta.
    destruct (train_core minIt iterations lf stop a m s Hm Ha HI HP) as (H1 & H2 & H3).
    set (s1 := run_calls c K T tp vp special a (calls (schedule minIt iterations lf stop)) (add_model m s)) in *.
    intros [= <- <-].
    assert (G2 : forall k t, k < K -> (q_kt s1 k t == m_kt_of m k t + word_total (ndocs c) (words c) (doclen c) (q_z s1) k t)%Q).
    { intros k t Hk. destruct (H1 k Hk) as (_ & G & _). rewrite (G t). ring. }
    assert (G3 : forall k, k < K -> (q_k s1 k == m_k_of m k + topic_total (ndocs c) (doclen c) (q_z s1) k)%Q).
    { intros k Hk. destruct (H1 k Hk) as (_ & _ & G). rewrite G. ring. }
    destruct m as [m|]; eexists; (split; [reflexivity|]); cbn [m_kt m_k m_dk m_docs].
    - split; [exact G2|]. split; [exact G3|]. split; [|repeat split; try reflexivity; try assumption; apply H3; assumption].
      split; [reflexivity|]. unfold vstack. split.
      + intros d k Hd. replace (d <? m_docs m) with true by (symmetry; apply Nat.ltb_lt; exact Hd). reflexivity.
      + intros d k Hd Hk. replace (m_docs m + d <? m_docs m) with false by (symmetry; apply Nat.ltb_ge; lia).
        replace (m_docs m + d - m_docs m) with d by lia. destruct (H1 k Hk) as (G & _). apply G. exact Hd.
    - split; [exact G2|]. split; [exact G3|]. split; [|repeat split; try reflexivity; try assumption; apply H3; assumption].
      split; [reflexivity|]. split; [lia|]. cbn [Nat.add]. intros d k Hd Hk. destruct (H1 k Hk) as (G & _). apply G. exact Hd.
  Qed.

  Theorem C39_empty_document_rejected minIt iterations lf stop q a m s d :
    d < ndocs c -> doclen c d = 0 -> train c K T tp vp special minIt iterations lf stop q a m s = Raise ValueError.
  Proof.
    intros Hd H0. unfold train. replace (existsb _ _) with true; [reflexivity|]. symmetry.
    apply existsb_exists. exists d. split; [apply in_seq; lia|]. rewrite H0. reflexivity.
  Qed.

  (** A call is rejected exactly when some document is empty. *)
  Theorem C39_rejected_iff minIt iterations lf stop q a m s :
    train c K T tp vp special minIt iterations lf stop q a m s = Raise ValueError <->
    exists d, d < ndocs c /\ doclen c d = 0.
  Proof.
    unfold train. destruct (existsb _ _) eqn:E.
    - split; [intros _|reflexivity]. apply existsb_exists in E. destruct E as (d & Hd & H).
      apply in_seq in Hd. exists d. split; lia.
    - split; [destruct q; discriminate|]. intros (d & Hd & H0). exfalso.
      assert (G : existsb (fun d => doclen c d <? 1) (seq 0 (ndocs c)) = true); [|congruence].
      apply existsb_exists. exists d. split; [apply in_seq; lia|]. rewrite H0. reflexivity.
  Qed.
End C39.

Definition ex_m : option mst :=
  Some (mkM 3 (fun _ _ => 1%Q) (fun k t => 2%Q) (fun k => 6%Q)).
(** One document, "0 1". *)
Definition ex_corpus2 : corpus := mkCorpus 1 (fun d n => n) (fun d => 2).
Definition ex_s2 : qst := calculate_counts ex_corpus2 2 2 ex_z.
Example C39_case_query :
  match train ex_corpus2 2 3 (1#2) (1#2) no_special 50 1 1 (fun _ => false) true (fun _ => 1#2)%Q ex_m ex_s2 with
  | Ok (m', s') => m' = ex_m /\ Qeq_bool (q_k s' 0 + q_k s' 1) 2 = true /\ Qeq_bool (q_k s' 0) (1#2) = false
  | Raise _ => False
  end.
Proof. vm_compute. auto. Qed.

(** ** C78: continuing to train *)

(** The number of tokens of the corpus. *)
Definition n_tokens (D : nat) (len : nat -> nat) : nat := sumN (map len (seq 0 D)).
Lemma qsum_qnat {A} (f : A -> nat) l : (qsum (fun a => qnat (f a)) l == qnat (sumN (map f l)))%Q.
Proof. induction l; [reflexivity|]. cbn [map sumN]. rewrite qsum_cons, IHl, qnat_plus. reflexivity. Qed.
Lemma distributions_total D len K z : distributions D len K z ->
  (qsum (fun k => topic_total D len z k) (seq 0 K) == qnat (n_tokens D len))%Q.
Proof.
  intros H. unfold topic_total, n_tokens. rewrite qsum_swap', <- qsum_qnat. apply qsum_ext. intros d Hd.
  apply in_seq in Hd. rewrite qsum_swap'. rewrite (qsum_ext _ (fun _ => 1%Q)).
  - rewrite qsum_const, seq_length. ring.
  - intros n Hn. apply in_seq in Hn. apply H; lia.
Qed.

(** A second training call on the model and the query state that the first one
    returned counts the corpus twice in the model: the first run's counts stay
    in the model and those of the second are added. *)
Theorem C78_second_run_counts_corpus_twice c K T tp vp special
    minIt it1 lf1 stop1 it2 lf2 stop2 a s m1 s1 m2 s2 :
  (0 < tp)%Q -> (0 < vp)%Q -> 0 < K -> 0 < T -> (forall k, k < K -> (0 < a k)%Q) ->
  tallies (ndocs c) (words c) (doclen c) K (fun _ _ => 0%Q) (fun _ => 0%Q) (q_dk s) (q_kt s) (q_k s) (q_z s) ->
  nonneg_resp (ndocs c) (doclen c) K (q_z s) ->
  (0 <= minIt)%Z -> (0 < it1)%Z -> (0 <= lf1 <= it1)%Z -> (0 < it2)%Z -> (0 <= lf2 <= it2)%Z ->
  train c K T tp vp special minIt it1 lf1 stop1 false a None s = Ok (m1, s1) ->
  train c K T tp vp special minIt it2 lf2 stop2 false a m1 s1 = Ok (m2, s2) ->
  exists m, m2 = Some m /\
    (forall k, k < K -> (m_k m k == topic_total (ndocs c) (doclen c) (q_z s1) k + topic_total (ndocs c) (doclen c) (q_z s2) k)%Q) /\
    (qsum (m_k m) (seq 0 K) == 2 * qnat (n_tokens (ndocs c) (doclen c)))%Q.
Proof.
  intros Htp Hvp HK HT Ha HI HP HmI Hit1 Hlf1 Hit2 Hlf2 E1 E2.
  assert (Hcall : forall it lf stop, (0 < it)%Z -> (0 <= lf <= it)%Z ->
    exists n, In n (calls (schedule minIt it lf stop)) /\ (0 < n)%Z).
  { intros it lf stop Hit Hlf. apply sumZ_pos_ex. change (0 < executed (schedule minIt it lf stop))%Z.
    destruct (C37_segments_add_up minIt it lf stop ltac:(lia) Hlf) as [G1 G2].
    destruct (finished (schedule minIt it lf stop)); [|rewrite G1 by reflexivity; exact Hit].
    destruct (G2 eq_refl) as (_ & G4 & _). lia. }
  destruct (C39_training_adds_counts c K T tp vp special Htp Hvp HK HT minIt it1 lf1 stop1 a None s m1 s1 I Ha HI HP E1)
    as (n1 & -> & A1 & A2 & A3 & A4 & A5 & A6 & A7).
  specialize (A7 (Hcall it1 lf1 stop1 Hit1 Hlf1)).
  cbn [m_kt_of m_k_of] in A1, A2.
  assert (HI1 : tallies (ndocs c) (words c) (doclen c) K (fun _ _ => 0%Q) (fun _ => 0%Q) (q_dk s1) (q_kt s1) (q_k s1) (q_z s1)).
  { revert E1. unfold train. destruct (existsb _ _); [discriminate|]. cbv zeta. intros [= _ <-].
    destruct (train_core c K T tp vp special Htp Hvp HK HT minIt it1 lf1 stop1 a None s I Ha HI HP) as (H1 & _).
    intros k Hk. destruct (H1 k Hk) as (G1 & G2 & G3). cbn [m_kt_of m_k_of] in G2, G3. cbv beta in G2, G3.
    split; [exact G1|]. split; [intros t; rewrite G2, Qplus_0_l; reflexivity|rewrite G3, Qplus_0_l; reflexivity]. }
  assert (Hok : model_ok K (Some n1)).
  { split.
    - intros k t Hk. rewrite A1 by exact Hk. rewrite Qplus_0_l. apply word_total_nonneg. intros; apply A4; assumption.
    - intros k Hk. rewrite A2 by exact Hk. rewrite Qplus_0_l. unfold topic_total. apply qsum_nonneg. intros d Hd.
      apply in_seq in Hd. apply qsum_nonneg. intros n Hn. apply in_seq in Hn. apply A4; lia. }
  destruct (C39_training_adds_counts c K T tp vp special Htp Hvp HK HT minIt it2 lf2 stop2 a (Some n1) s1 m2 s2 Hok Ha HI1 A4 E2)
    as (n2 & -> & B1 & B2 & B3 & B4 & B5 & B6 & B7).
  specialize (B7 (Hcall it2 lf2 stop2 Hit2 Hlf2)).
  exists n2. split; [reflexivity|].
  assert (G : forall k, k < K -> (m_k n2 k == topic_total (ndocs c) (doclen c) (q_z s1) k + topic_total (ndocs c) (doclen c) (q_z s2) k)%Q).
  { intros k Hk. rewrite B2 by exact Hk. cbn [m_k_of]. rewrite A2 by exact Hk. ring. }
  split; [exact G|].
  rewrite (qsum_ext _ (fun k => topic_total (ndocs c) (doclen c) (q_z s1) k + topic_total (ndocs c) (doclen c) (q_z s2) k)%Q)
    by (intros k Hk; apply in_seq in Hk; apply G; lia).
  rewrite qsum_plus, (distributions_total _ _ _ _ A7), (distributions_total _ _ _ _ B7). ring.
Qed.
(** So after a second run the model's topic totals are not those of the final
    responsibilities. *)
Theorem C78_resumed_counts_match_refuted :
  exists c K T tp vp special a s m1 s1 m2 s2,
    train c K T tp vp special 50 1 1 (fun _ => false) false a None s = Ok (m1, s1) /\
    train c K T tp vp special 50 1 1 (fun _ => false) false a m1 s1 = Ok (Some m2, s2) /\
    ~ (forall k, k < K -> (m_k m2 k == topic_total (ndocs c) (doclen c) (q_z s2) k)%Q).
Proof.
  pose (c := ex_corpus). pose (a := fun _ : nat => (1#2)%Q).
  destruct (train c 2 3 (1#2) (1#2) no_special 50 1 1 (fun _ => false) false a None ex_s0) as [[m1 s1]|] eqn:E1.
  2:{ unfold train in E1. replace (existsb _ _) with false in E1 by reflexivity. discriminate. }
  destruct (train c 2 3 (1#2) (1#2) no_special 50 1 1 (fun _ => false) false a m1 s1) as [[m2 s2]|] eqn:E2.
  2:{ unfold train in E2. replace (existsb _ _) with false in E2 by reflexivity. discriminate. }
  destruct C38_hypotheses_met as (H1 & H2 & _).
  pose proof (C39_training_adds_counts c 2 3 (1#2) (1#2) no_special ltac:(reflexivity) ltac:(reflexivity) ltac:(lia) ltac:(lia)
     50 1 1 (fun _ => false) a None ex_s0 m1 s1 I ltac:(intros; reflexivity) H1 H2 E1) as (n1 & En1 & _ & _ & _ & Hnn & _ & _ & Hd1).
  destruct (C78_second_run_counts_corpus_twice c 2 3 (1#2) (1#2) no_special 50 1 1 (fun _ => false) 1 1 (fun _ => false) a ex_s0 m1 s1 m2 s2)
    as (m & -> & Hk & Hsum); try lia; try reflexivity; try assumption; try (intros; reflexivity).
  exists c, 2, 3, (1#2)%Q, (1#2)%Q, no_special, a, ex_s0, m1, s1, m, s2.
  split; [exact E1|]. split; [exact E2|]. intros Heq.
  assert (Hz : (qsum (fun k => topic_total (ndocs c) (doclen c) (q_z s1) k) (seq 0 2) == 0)%Q).
  { apply qsum_zero. intros k Hin. apply in_seq in Hin. specialize (Hk k ltac:(lia)). rewrite (Heq k ltac:(lia)) in Hk. lra. }
  rewrite (distributions_total _ _ 2 _) in Hz; [discriminate|].
  apply Hd1. exists 1%Z. split; [left; reflexivity|lia].
Qed.

(** ** C40: token lists *)
Definition counts_ok (row : list (nat * Z)) : Prop := Forall (fun e => (0 <= snd e)%Z) row.

(** The first [docLens[d]] tokens of document [d] contain every word [t] as
    often as the row says, whatever the random numbers; the rest is padding. *)
Theorem C40_word_lists_keep_bags rows r :
  rows <> [] -> Forall counts_ok rows ->
  exists W lens, to_word_list rows r = Ok (W, lens) /\ length W = length rows /\
    forall d row, nth_error rows d = Some row ->
      exists w nd, nth_error W d = Some w /\ nth_error lens d = Some nd /\
        Z.to_nat nd <= length w /\
        (forall t, Z.of_nat (count_occ Nat.eq_dec (firstn (Z.to_nat nd) w) t) = row_count row t) /\
        length (firstn (Z.to_nat nd) w) = Z.to_nat nd /\
        (forall x, In x (skipn (Z.to_nat nd) w) -> x = 0).
Proof.
  intros Hne Hpos. destruct (to_word_list_spec rows r Hne Hpos) as (W & E & HL & HW).
  exists W, (map (fun row => sumZ (map snd row)) rows). split; [exact E|]. split; [exact HL|].
  intros d row Hrow. destruct (nth_error W d) as [w|] eqn:Ew.
  2:{ apply nth_error_None in Ew. assert (d < length rows) by (apply nth_error_Some; congruence). lia. }
  exists w, (sumZ (map snd row)). split; [reflexivity|]. split; [rewrite nth_error_map, Hrow; reflexivity|].
  destruct (HW d row w Hrow Ew) as (H1 & H2 & H3). split; [exact H1|].
  assert (Hr : counts_ok row) by (rewrite Forall_forall in Hpos; apply Hpos; eapply nth_error_In; exact Hrow).
  split; [|split; [apply firstn_length_le; exact H1|exact H3]].
  intros t. rewrite <- (expand_count row t Hr). f_equal.
  symmetry. revert t. apply (Permutation_count_occ Nat.eq_dec). exact H2.
Qed.
Definition ex_rand : nat -> nat -> nat * nat := fun d n => (n + 1, 2 * n).
Example C40_case :
  to_word_list [[(0, 2%Z); (3, 1%Z)]; [(1, 1%Z)]] ex_rand = Ok ([[0; 0; 3]; [1; 0; 0]], [3%Z; 1%Z]) /\
  to_word_list [[(0, 1%Z); (3, 2%Z); (5, 1%Z)]] ex_rand = Ok ([[3; 0; 5; 3]], [4%Z]).
Proof. split; vm_compute; reflexivity. Qed.

(** The Gibbs sampler's flat list is the concatenation of lists of lengths
    [docLens], the [d]-th with the counts of row [d]. *)
Theorem C40_flat_list_keeps_bags T rows :
  T <= u16 -> Forall (Forall (fun e => (0 <= snd e)%Z /\ fst e < T)) rows ->
  exists parts lens, flatten_rows T rows = Ok (concat parts, lens) /\
    map (fun p => Z.of_nat (length p)) parts = lens /\
    Forall2 (fun p row => forall t, Z.of_nat (count_occ Nat.eq_dec p t) = row_count row t) parts rows.
Proof.
  intros HT HF. exists (map expand_row rows), (map (fun row => sumZ (map snd row)) rows).
  split; [apply flatten_spec; assumption|]. split.
  - rewrite map_map. apply map_ext_in. intros row Hrow. apply expand_length.
    rewrite Forall_forall in HF. eapply Forall_impl; [|exact (HF row Hrow)]. cbv beta. tauto.
  - clear HT. induction HF as [|row rows Hr _ IH]; [constructor|]. cbn [map]. constructor; [|exact IH].
    intros t. apply expand_count. eapply Forall_impl; [|exact Hr]. cbv beta. tauto.
Qed.
Theorem C40_large_vocabulary_rejected T rows : u16 < T -> flatten_rows T rows = Raise ValueError.
Proof. intros H. unfold flatten_rows. apply Nat.ltb_lt in H. rewrite H. reflexivity. Qed.
Example C40_flat_case : flatten_rows 4 [[(0, 2%Z); (3, 1%Z)]; [(1, 1%Z)]] = Ok ([0; 0; 3; 1], [3%Z; 1%Z]).
Proof. vm_compute. reflexivity. Qed.

(** ** C79: the variances kept by CVB *)
Section C79.
  Context (c : corpus) (K : nat) (bkt bvkt : nat -> nat -> Q) (bk bvk : nat -> Q).
  Notation means_match s := (tallies (ndocs c) (words c) (doclen c) K bkt bk (n_dk s) (n_kt s) (n_k s) (v_z s)).
  Notation vars_match s := (tallies (ndocs c) (words c) (doclen c) K bvkt bvk (v_dk s) (v_kt s) (v_k s)
    (fun d n k => v_z s d n k * (1 - v_z s d n k))%Q).

  (** The expected counts are right in both versions. *)
  Theorem C79_means_match f32 prob iterations s :
    means_match s -> means_match (fst (cvb_iterate c f32 K prob iterations s)).
  Proof.
    apply (cvb_iterate_keeps (ninv c K bkt bk)). intros. apply cvb_update_ninv; assumption.
  Qed.
  (** The variances are right in the 64-bit version. *)
  Theorem C79_variances_match_double prob iterations s :
    means_match s -> vars_match s -> vars_match (fst (cvb_iterate c false K prob iterations s)).
  Proof.
    intros H1 H2.
    pose proof (cvb_iterate_keeps (vinv c K bkt bk bvkt bvk) c false K prob) as H.
    apply H; [|split; assumption]. intros. apply cvb_update_vinv; assumption.
  Qed.
End C79.
Theorem C79_initial_variances c K z :
  let s := cvb_counts c K z in
  tallies (ndocs c) (words c) (doclen c) K (fun _ _ => 0%Q) (fun _ => 0%Q) (n_dk s) (n_kt s) (n_k s) (v_z s) /\
  tallies (ndocs c) (words c) (doclen c) K (fun _ _ => 0%Q) (fun _ => 0%Q) (v_dk s) (v_kt s) (v_k s)
    (fun d n k => v_z s d n k * (1 - v_z s d n k))%Q /\
  (forall d n k, n < doclen c d -> v_z s d n k = z d n k).
Proof.
  cbv zeta. destruct (cvb_counts_vinv c K z) as [H1 H2]. split; [exact H1|]. split; [exact H2|].
  intros d n k Hn. rewrite cvb_counts_as_list.
  match goal with |- context [fold_left _ _ ?s] => destruct (cc_steps c (zero_tail c z) (cc_list c K) s) as (_ & _ & _ & _ & _ & _ & H7) end.
  cbv zeta in H7. rewrite H7. cbn [v_z]. unfold zero_tail. apply Nat.ltb_lt in Hn. rewrite Hn. reflexivity.
Qed.
(** In the 32-bit version they are wrong after a single sweep, even if the
    probabilities do not change. *)
Theorem C79_variances_match_single_refuted :
  exists c K z prob,
    let s0 := cvb_counts c K z in
    let r := cvb_iterate c true K prob 1 s0 in
    distributions (ndocs c) (doclen c) K (v_z s0) /\ snd r = true /\
    (forall s d n k, prob s d n k = Some (z d n k)) /\
    ~ (v_k (fst r) 0 == topic_total (ndocs c) (doclen c) (fun d n k => v_z (fst r) d n k * (1 - v_z (fst r) d n k)) 0)%Q.
Proof.
  exists ex_corpus, 2, ex_z, (fun _ d n k => Some (ex_z d n k)). cbv zeta. split; [|split; [|split]].
  - intros d n Hd Hn. destruct (C79_initial_variances ex_corpus 2 ex_z) as (_ & _ & Hz). split.
    + intros k _. rewrite Hz by exact Hn. unfold ex_z. destruct (k =? 0); discriminate.
    + rewrite (qsum_ext _ (fun k => ex_z d n k)) by (intros; rewrite Hz by exact Hn; reflexivity). reflexivity.
  - vm_compute. reflexivity.
  - reflexivity.
  - vm_compute. discriminate.
Qed.
Example C79_case :
  let s := cvb_counts ex_corpus 2 ex_z in
  map (fun k => Qred (v_k s k)) [0; 1] = [3#4; 3#4]%Q /\
  map (fun k => Qred (n_k s k)) [0; 1] = [1; 3]%Q /\
  let s' := fst (cvb_iterate ex_corpus false 2 (fun _ d n k => Some (1#2)%Q) 2 s) in
  map (fun k => Qred (v_k s' k)) [0; 1] = [1; 1]%Q.
Proof. vm_compute. auto. Qed.

(** ** C80: totals of a model after further training *)

(** Topic totals are the row sums of the topic-word counts. *)
Definition consistent (K T : nat) (kt : nat -> nat -> Q) (k_ : nat -> Q) : Prop :=
  forall k, k < K -> (k_ k == qsum (kt k) (seq 0 T))%Q.

Theorem C80_cvb0_totals_stay_consistent c K T tp vp special minIt iterations lf stop a m s m1 s' :
  (0 < tp)%Q -> (0 < vp)%Q -> 0 < K -> 0 < T -> model_ok K m -> (forall k, k < K -> (0 < a k)%Q) ->
  tallies (ndocs c) (words c) (doclen c) K (fun _ _ => 0%Q) (fun _ => 0%Q) (q_dk s) (q_kt s) (q_k s) (q_z s) ->
  nonneg_resp (ndocs c) (doclen c) K (q_z s) ->
  (forall d n, d < ndocs c -> n < doclen c d -> words c d n < T) ->
  (forall m0, m = Some m0 -> consistent K T (m_kt m0) (m_k m0)) ->
  train c K T tp vp special minIt iterations lf stop false a m s = Ok (Some m1, s') ->
  consistent K T (m_kt m1) (m_k m1).
Proof.
  intros Htp Hvp HK HT Hm Ha HI HP HW Hc E.
  destruct (C39_training_adds_counts c K T tp vp special Htp Hvp HK HT minIt iterations lf stop a m s (Some m1) s' Hm Ha HI HP E)
    as (m2 & [= <-] & A1 & A2 & _).
  intros k Hk. rewrite A2 by exact Hk.
  rewrite (qsum_ext (m_kt m1 k) (fun t => m_kt_of m k t + word_total (ndocs c) (words c) (doclen c) (q_z s') k t)%Q)
    by (intros; apply A1; exact Hk).
  rewrite qsum_plus, (word_total_sum _ _ _ _ _ _ HW). apply Qplus_comp; [|reflexivity].
  destruct m as [m0|]; cbn [m_kt_of m_k_of]; [apply (Hc m0 eq_refl k Hk)|].
  rewrite qsum_zero; reflexivity.
Qed.

(** CVB from scratch: the same. *)
Theorem C80_cvb_first_training_consistent c f32 K T prob cs z m1 s' :
  (forall d n, d < ndocs c -> n < doclen c d -> words c d n < T) ->
  cvb_train c f32 K prob cs None (cvb_counts c K z) = (m1, s') ->
  consistent K T (cm_kt m1) (cm_k m1).
Proof.
  intros HW [= <- <-]. cbn [cvb_store cvb_add cm_kt cm_k].
  assert (H : ninv c K (fun _ _ => 0%Q) (fun _ => 0%Q)
    (fold_left (fun s n => fst (cvb_iterate c f32 K prob (Z.to_nat n) s)) cs (cvb_counts c K z))).
  { assert (H0 : ninv c K (fun _ _ => 0%Q) (fun _ => 0%Q) (cvb_counts c K z)) by apply cvb_counts_vinv.
    revert H0. generalize (cvb_counts c K z). induction cs as [|n cs IH]; intros s Hs; [exact Hs|]. cbn [fold_left].
    apply IH. apply (C79_means_match c K (fun _ _ => 0%Q) (fun _ => 0%Q)). exact Hs. }
  intros k Hk. destruct (H k Hk) as (_ & H2 & H3). rewrite H3.
  rewrite (qsum_ext (n_kt _ k) _ _ (fun t _ => H2 t)), qsum_plus, (word_total_sum _ _ _ _ _ _ HW), qsum_zero by reflexivity.
  reflexivity.
Qed.

(** CVB, further training of an existing model: the topic totals become the
    variances. *)
Theorem C80_cvb_totals_become_variances c f32 K prob cs m s m1 s' :
  cvb_train c f32 K prob cs (Some m) s = (m1, s') ->
  cm_k m1 = v_k s' /\ cm_vk m1 = cm_vk m /\ cm_kt m1 = n_kt s' /\ cm_vkt m1 = v_kt s'.
Proof. intros [= <- <-]. cbn. auto. Qed.
(** What the arrays hold after further training: the word counts are those of
    the old model plus the totals of the new responsibilities, and so are the
    totals [n_k] that the model does not receive. *)
Theorem C80_cvb_further_training_contents c f32 K prob cs m z m1 s' :
  cvb_train c f32 K prob cs (Some m) (cvb_counts c K z) = (m1, s') ->
  forall k, k < K ->
    (forall t, (cm_kt m1 k t == cm_kt m k t + word_total (ndocs c) (words c) (doclen c) (v_z s') k t)%Q) /\
    (n_k s' k == cm_k m k + topic_total (ndocs c) (doclen c) (v_z s') k)%Q /\
    (f32 = false -> (cm_k m1 k == cm_vk m k + topic_total (ndocs c) (doclen c) (fun d n k => v_z s' d n k * (1 - v_z s' d n k)) k)%Q /\
       forall t, (cm_vkt m1 k t == cm_vkt m k t + word_total (ndocs c) (words c) (doclen c) (fun d n k => v_z s' d n k * (1 - v_z s' d n k)) k t)%Q).
Proof.
  intros [= <- <-]. set (s0 := cvb_counts c K z).
  destruct (cvb_counts_vinv c K z) as [I1 I2]. fold s0 in I1, I2.
  set (R := fold_left (fun s n => fst (cvb_iterate c f32 K prob (Z.to_nat n) s)) cs (cvb_add (Some m) s0)).
  assert (A1 : ninv c K (cm_kt m) (cm_k m) (cvb_add (Some m) s0)).
  { intros k Hk. destruct (I1 k Hk) as (B1 & B2 & B3). cbn [cvb_add n_dk n_kt n_k v_z]. split; [exact B1|].
    split; [intros t; rewrite B2; ring|rewrite B3; ring]. }
  assert (A2 : vinv c K (cm_kt m) (cm_k m) (cm_vkt m) (cm_vk m) (cvb_add (Some m) s0)).
  { split; [exact A1|]. intros k Hk. destruct (I2 k Hk) as (B1 & B2 & B3). cbn [cvb_add v_dk v_kt v_k v_z]. split; [exact B1|].
    split; [intros t; rewrite B2; ring|rewrite B3; ring]. }
  assert (R1 : ninv c K (cm_kt m) (cm_k m) R).
  { subst R. revert A1. generalize (cvb_add (Some m) s0). induction cs as [|n l IH]; intros s Hs; [exact Hs|]. cbn [fold_left].
    apply IH. apply (C79_means_match c K (cm_kt m) (cm_k m)). exact Hs. }
  assert (R2 : f32 = false -> vinv c K (cm_kt m) (cm_k m) (cm_vkt m) (cm_vk m) R).
  { clear R1. intros ->. subst R. revert A2. generalize (cvb_add (Some m) s0).
    induction cs as [|n l IH]; intros s Hs; [exact Hs|]. cbn [fold_left].
    apply IH. destruct Hs as [S1 S2].
    pose proof (C79_means_match c K (cm_kt m) (cm_k m) false prob (Z.to_nat n) s S1) as G1.
    pose proof (C79_variances_match_double c K (cm_kt m) (cm_vkt m) (cm_k m) (cm_vk m) prob (Z.to_nat n) s S1 S2) as G2.
    split; [exact G1|exact G2]. }
  intros k Hk. destruct (R1 k Hk) as (_ & B2 & B3). cbn [cvb_store cm_kt cm_k cm_vkt]. split; [exact B2|]. split; [exact B3|].
  intros Hf. destruct (R2 Hf) as [_ V]. destruct (V k Hk) as (_ & V2 & V3). split; [exact V3|exact V2].
Qed.
Theorem C80_cvb_totals_stay_consistent_refuted :
  exists c K T prob m s m1 s',
    consistent K T (cm_kt m) (cm_k m) /\
    (exists z cs, cvb_train c false K prob cs None (cvb_counts c K z) = (m, s')) /\
    (exists z, s = cvb_counts c K z) /\
    (exists s'', cvb_train c false K prob [1%Z] (Some m) s = (m1, s'')) /\
    ~ consistent K T (cm_kt m1) (cm_k m1).
Proof.
  pose (prob := fun (_ : vst) d n k => Some (ex_z d n k)).
  pose (tr := cvb_train ex_corpus false 2 prob [1%Z] None (cvb_counts ex_corpus 2 ex_z)).
  pose (tr2 := cvb_train ex_corpus false 2 prob [1%Z] (Some (fst tr)) (cvb_counts ex_corpus 2 ex_z)).
  exists ex_corpus, 2, 3, prob, (fst tr), (cvb_counts ex_corpus 2 ex_z), (fst tr2), (snd tr).
  split; [|split; [|split; [|split]]].
  - intros k Hk. destruct k as [|[|k]]; [| |lia]; vm_compute; reflexivity.
  - exists ex_z, [1%Z]. apply surjective_pairing.
  - exists ex_z. reflexivity.
  - exists (snd tr2). apply surjective_pairing.
  - intros H. specialize (H 0 ltac:(lia)). vm_compute in H. discriminate.
Qed.
Example C80_case :
  match train ex_corpus2 2 3 (1#2) (1#2) no_special 50 1 1 (fun _ => false) false (fun _ => 1#2)%Q ex_m ex_s2 with
  | Ok (Some m1, _) => Qeq_bool (m_k m1 0 + m_k m1 1) 14 = true /\ m_docs m1 = 4
  | _ => False
  end /\ consistent 2 3 (fun k t => 2%Q) (fun k => 6%Q) /\ model_ok 2 ex_m.
Proof.
  split; [vm_compute; auto|]. split.
  - intros k Hk. reflexivity.
  - split; intros; discriminate.
Qed.

(** ** C81: measuring the likelihood *)

(** In exact arithmetic, with positive priors and counts that match
    responsibilities that are not negative, measuring changes no count. *)
Theorem C81_measuring_keeps_counts c K T a b bkt bk s :
  (0 < b)%Q -> 0 < K -> 0 < T -> (forall k, k < K -> (0 < a k)%Q) ->
  (forall k t, k < K -> (0 <= bkt k t)%Q) ->
  tallies (ndocs c) (words c) (doclen c) K bkt bk (q_dk s) (q_kt s) (q_k s) (q_z s) ->
  nonneg_resp (ndocs c) (doclen c) K (q_z s) ->
  let s' := measure K T a b s in
  (forall d k, d < ndocs c -> k < K -> (q_dk s' d k == q_dk s d k)%Q) /\
  (forall k t, k < K -> t < T -> (q_kt s' k t == q_kt s k t)%Q) /\
  (forall k, q_k s' k = q_k s k) /\ (forall d n k, q_z s' d n k = q_z s d n k).
Proof.
  intros Hb HK HT Ha Hbkt HI HP. cbv zeta.
  assert (HI' : inv c K bkt (fun k => q_k s k - topic_total (ndocs c) (doclen c) (q_z s) k)%Q s).
  { intros k Hk. destruct (HI k Hk) as (H1 & H2 & H3). split; [exact H1|]. split; [exact H2|]. ring. }
  destruct (measure_same c K T b bkt (fun k => q_k s k - topic_total (ndocs c) (doclen c) (q_z s) k)%Q Hb HK HT Hbkt) with (a := a) (s := s)
    as (M1 & M2 & M3 & M4); try assumption.
  split; [intros; apply M1; assumption|]. split; [intros; apply M2; assumption|].
  split; [intros; rewrite M3; reflexivity|intros; rewrite M4; reflexivity].
Qed.
Example C81_case :
  let s' := measure 2 3 (fun _ => 1#2)%Q (1#2) ex_s0 in
  show s' = show ex_s0 /\ Qeq_bool (qsum (fun k => q_dk ex_s0 0 k + (1#2))%Q [0; 1]) 4 = true.
Proof. vm_compute. auto. Qed.

Print Assumptions C37_segments_add_up.
Print Assumptions C37_large_frequency_runs_longer.
Print Assumptions C37_requested_iterations_refuted.
Print Assumptions C37_vb_single.
Print Assumptions C37_vb_double_refuted.
Print Assumptions C37_vb_double_never_runs.
Print Assumptions C37_svb_single_iff.
Print Assumptions C37_svb_double_iff.
Print Assumptions C37_svb_default_plan_refuted.
Print Assumptions C82_logged_numbers.
Print Assumptions C82_logged_number_is_last_iteration_refuted.
Print Assumptions C38_counts_match.
Print Assumptions C38_counts_match_at_every_point.
Print Assumptions C38_initial_counts_match.
Print Assumptions C38_positive_priors_never_abort.
Print Assumptions C39_query_leaves_model.
Print Assumptions C39_training_adds_counts.
Print Assumptions C39_empty_document_rejected.
Print Assumptions C39_rejected_iff.
Print Assumptions C78_second_run_counts_corpus_twice.
Print Assumptions C78_resumed_counts_match_refuted.
Print Assumptions C40_word_lists_keep_bags.
Print Assumptions C40_flat_list_keeps_bags.
Print Assumptions C40_large_vocabulary_rejected.
Print Assumptions C79_means_match.
Print Assumptions C79_variances_match_double.
Print Assumptions C79_initial_variances.
Print Assumptions C79_variances_match_single_refuted.
Print Assumptions C80_cvb0_totals_stay_consistent.
Print Assumptions C80_cvb_first_training_consistent.
Print Assumptions C80_cvb_totals_become_variances.
Print Assumptions C80_cvb_further_training_contents.
Print Assumptions C80_cvb_totals_stay_consistent_refuted.
Print Assumptions C81_measuring_keeps_counts.
