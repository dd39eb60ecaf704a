(** * Properties of the Gibbs samplers: C41-C44, C83-C88 *)
From Coq Require Import List ZArith QArith Qfield Arith Bool Lia Lqa Permutation.
From Verif Require Import Base EvalSpec EvalProofs CvbModel CvbProofs CvbMore GibbsModel GibbsSpec GibbsProofs GibbsMore GibbsRuns GibbsDist.
Import ListNotations.
Open Scope nat_scope.

(** The counts of a training run are the tallies of the assignments. *)
Definition tallied (K : nat) (w : nat -> nat) (lens : list nat) (s : gst) : Prop :=
  assigned lens K (g_z s) /\
  (forall d k, d < length lens -> g_dk s d k = doc_topic lens (g_z s) d k) /\
  (forall k v, g_kv s k v = topic_word w lens (g_z s) k v) /\
  (forall k, g_k s k = topic_all lens (g_z s) k).
(** In a query only the document counts follow the assignments. *)
Definition tallied_query (K : nat) (lens : list nat) (kv : nat -> nat -> Z) (k_ : nat -> Z) (s : gst) : Prop :=
  assigned lens K (g_z s) /\
  (forall d k, d < length lens -> g_dk s d k = doc_topic lens (g_z s) d k) /\
  (forall k v, g_kv s k v = kv k v) /\ (forall k, g_k s k = k_ k).

Lemma tallied_ok K w lens s : tallied K w lens s <-> counts_ok K w lens false (fun _ _ => 0%Z) (fun _ => 0%Z) s.
Proof.
  unfold tallied, counts_ok. cbn [Z.add]. reflexivity.
Qed.
Lemma tallied_query_ok K w lens kv k_ s : tallied_query K lens kv k_ s <-> counts_ok K w lens true kv k_ s.
Proof.
  unfold tallied_query, counts_ok. split; intros (A & B & C & E); (split; [exact A|]); (split; [exact B|]);
    split; intros; rewrite ?C, ?E; lia.
Qed.

Section Gibbs.
  Context (K T : nat) (w : nat -> nat) (lens : list nat) (a b : nat -> Q).
  Context (special : gst -> nat -> nat -> Z).
  Notation D := (length lens).
  Hypothesis HK : K <= 256.                             (* asserted by newModelAtRandom *)
  Hypothesis Hspecial : forall s d v, (special s d v < Z.of_nat K)%Z.

  (** ** C41 *)
  Theorem C41_initial_counts_match z : assigned lens K z ->
    let s := sum_suff_stats w lens (mkG z (fun _ _ => 0%Z) (fun _ _ => 0%Z) (fun _ => 0%Z)) in
    tallied K w lens s /\ g_z s = z.
  Proof.
    clear HK Hspecial.
    intros Hz. cbv zeta. destruct (sum_suff_stats_ok w lens z (fun _ _ => 0%Z) (fun _ => 0%Z)) as (Ez & H1 & H2 & H3).
    split; [|exact Ez]. unfold tallied. rewrite Ez. split; [exact Hz|]. split; [exact H1|].
    split; intros; [rewrite H2|rewrite H3]; reflexivity.
  Qed.
  Lemma query_init z nkv nk : assigned lens K z ->
    counts_ok K w lens true (fun k v => (nkv k v + topic_word w lens z k v)%Z) (fun k => (nk k + topic_all lens z k)%Z)
      (sum_suff_stats w lens (mkG z (fun _ _ => 0%Z) nkv nk)).
  Proof.
    clear HK Hspecial special a b T.
    intros Hz. destruct (sum_suff_stats_ok w lens z nkv nk) as (Ez & H1 & H2 & H3).
    unfold counts_ok. rewrite Ez. split; [exact Hz|]. split; [exact H1|].
    split; intros; [rewrite H2|rewrite H3]; lia.
  Qed.

  (** Between any two token visits, whatever the state they start from. *)
  Theorem C41_counts_match_at_every_point d i r s s' : d < D -> i < nth d lens 0 -> tallied K w lens s ->
    visit K T w a b false special d (offset lens d + i) r s = Ok s' -> tallied K w lens s'.
  Proof.
    intros Hd Hi Hs E. apply tallied_ok. eapply visit_ok; try eassumption; apply tallied_ok; exact Hs.
  Qed.
  Theorem C41_counts_match start u n thin s c s' c' : tallied K w lens s ->
    sample K T w lens a b false special start u n thin s c = Ok (s', c') -> tallied K w lens s'.
  Proof.
    intros Hs E. apply tallied_ok. eapply sample_ok; try eassumption; apply tallied_ok; exact Hs.
  Qed.
  Theorem C41_query_counts_match start u n thin kv k_ s c s' c' : tallied_query K lens kv k_ s ->
    sample K T w lens a b true special start u n thin s c = Ok (s', c') -> tallied_query K lens kv k_ s'.
  Proof.
    intros Hs E. apply (tallied_query_ok K w). eapply sample_ok; try eassumption; apply tallied_query_ok; exact Hs.
  Qed.
  Lemma run_plan_ok isQuery bkv bk (r1 r2 : rng) plan s c s' c' : counts_ok K w lens isQuery bkv bk s ->
    run_plan K T w lens a b isQuery special r1 r2 plan s c = Ok (s', c') -> counts_ok K w lens isQuery bkv bk s'.
  Proof.
    intros Hs E. destruct plan as [[it bi] th]. unfold run_plan in E. apply bind_ok in E. destruct E as ((s1 & c1) & E1 & E2).
    cbn [fst snd] in E2.
    pose proof (sample_ok K T w lens isQuery bkv bk a b special HK Hspecial (r_start r1) (r_u r1) _ _ _ _ _ _ Hs E1) as H1.
    exact (sample_ok K T w lens isQuery bkv bk a b special HK Hspecial (r_start r2) (r_u r2) _ _ _ _ _ _ H1 E2).
  Qed.
  Theorem C41_training_counts_match r1 r2 plan z s' c' : assigned lens K z ->
    train K T w lens a b special r1 r2 plan z = Ok (s', c') ->
    tallied K w lens s' /\
    (forall d, d < D -> sumZ (map (g_dk s' d) (seq 0 K)) = Z.of_nat (nth d lens 0)).
  Proof.
    intros Hz E. destruct (C41_initial_counts_match z Hz) as (Hs & _).
    assert (G : tallied K w lens s').
    { apply tallied_ok. eapply run_plan_ok; [|exact E]. apply tallied_ok. exact Hs. }
    split; [exact G|]. intros d Hd. destruct G as (A & B & _).
    pose proof (sum_doc K lens (g_z s') d A Hd) as S.
    rewrite (qsum_ext _ (fun k => inject_Z (g_dk s' d k))) in S by (intros; rewrite B by exact Hd; reflexivity).
    rewrite sum_injZ in S. unfold qnat, len_ in S. apply inject_Z_injective. exact S.
  Qed.

  (** ** C42 *)
  (** The recorded samples are the states after every [thin]-th sweep. *)
  Theorem C42_samples_recorded isQuery start u n thin s c s' c' :
    sample K T w lens a b isQuery special start u n thin s c = Ok (s', c') ->
    taken c' = Z.to_nat n / thin /\
    exists samples, length samples = Z.to_nat n / thin /\
      (forall i t, nth_error samples i = Some t ->
         exists ct, sample K T w lens a b isQuery special start u (Z.of_nat ((i + 1) * thin)) thin s c = Ok (t, ct)) /\
      (forall d k, (topic_sum c' d k == topic_sum c d k +
         qsum (fun t => (inject_Z (g_dk t d k) + a k) / (qnat (nth d lens 0%nat) + qsum a (seq 0%nat K))) samples)%Q) /\
      (forall k v, (vocab_sum c' k v == vocab_sum c k v +
         if isQuery then 0 else qsum (fun t => (inject_Z (g_kv t k v) + b v) / (inject_Z (g_k t k) + qsum b (seq 0%nat T))) samples)%Q).
  Proof.
    clear HK Hspecial.
    intros E. rewrite sample_run in E.
    apply run_samples in E. destruct E as (_ & l & L1 & L2 & L3 & L4 & _ & L5).
    split; [exact L2|]. exists l. split; [exact L1|]. split; [|split; [exact L3|exact L4]].
    intros i t Hi. destruct (L5 i t Hi) as (ct & R). exists ct. rewrite sample_run, Nat2Z.id. exact R.
  Qed.
  Theorem C42_burn_in_records_nothing isQuery start u n s c s' c' :
    sample K T w lens a b isQuery special start u n (Z.to_nat (n + 1)) s c = Ok (s', c') ->
    taken c' = 0 /\ topic_sum c' = topic_sum c /\ vocab_sum c' = vocab_sum c.
  Proof.
    clear HK Hspecial.
    intros E. destruct (Z.ltb_spec n 0) as [Hn|Hn].
    { unfold sample in E. replace (Z.to_nat n) with 0 in E by lia. cbn in E. injection E as <- <-. auto. }
    unfold sample in E.
    assert (G : forall m, m <= Z.to_nat n -> forall t ct,
      fold_left (sample_step K T w lens a b isQuery special start u (Z.to_nat (n + 1))) (seq 0 m)
        (Ok (s, mkAcc (topic_sum c) (vocab_sum c) 0)) = Ok (t, ct) -> ct = mkAcc (topic_sum c) (vocab_sum c) 0).
    { induction m as [|m IH]; intros Hm t ct Et; [injection Et as _ <-; reflexivity|].
      rewrite seq_S, fold_left_app in Et. cbn [fold_left Nat.add] in Et. unfold sample_step at 1 in Et.
      apply bind_ok in Et. destruct Et as ((t1 & c1) & E1 & Et). cbn [fst snd] in Et.
      apply bind_ok in Et. destruct Et as (t2 & E2 & Et).
      rewrite (IH ltac:(lia) _ _ E1) in Et. replace (Z.to_nat (n + 1)) with (S (Z.to_nat n)) in Et by lia.
      cbn [Nat.eqb] in Et. rewrite Nat.mod_small in Et by lia.
      replace (m + 1 =? 0) with false in Et by lia. injection Et as _ <-. reflexivity. }
    rewrite (G _ (le_n _) _ _ E). auto.
  Qed.
  (** A plan made by newTrainPlan, with given or default burn-in and thinning. *)
  Theorem C42_training_samples r1 r2 iterations burnIn thin z s' c' :
    train K T w lens a b special r1 r2 (new_train_plan iterations burnIn thin) z = Ok (s', c') ->
    taken c' = Z.to_nat iterations / Z.to_nat (snd (new_train_plan iterations burnIn thin)).
  Proof.
    clear HK Hspecial.
    intros E. unfold train, run_plan, new_train_plan in *. cbn [snd] in *.
    apply bind_ok in E. destruct E as ((s1 & c1) & E1 & E2). cbn [fst snd] in E2.
    apply C42_samples_recorded in E2. destruct E2 as (-> & _). f_equal. f_equal. lia.
  Qed.

  (** ** C83: draws that are not zero always select a topic *)
  Definition good_draws (r : rng) : Prop := forall sw d i, (0 < r_u r sw d i)%Q /\ (r_u r sw d i <= 1)%Q.
  Lemma run_plan_total isQuery bkv bk r1 r2 it bi th s c :
    proper K T w lens bkv bk a b -> counts_ok K w lens isQuery bkv bk s -> good_draws r1 -> good_draws r2 ->
    (0 <= bi)%Z -> (0 < th)%Z ->
    exists r, run_plan K T w lens a b isQuery special r1 r2 (it, bi, th) s c = Ok r.
  Proof.
    intros HP Hs G1 G2 Hb Ht. unfold run_plan.
    destruct (sample_total K T w lens isQuery bkv bk a b special (r_start r1) (r_u r1) HK Hspecial bi (Z.to_nat (bi + 1)) s c HP G1 Hs ltac:(lia))
      as ((s1 & c1) & E1 & H1). rewrite E1. cbn [bind fst snd] in *.
    destruct (sample_total K T w lens isQuery bkv bk a b special (r_start r2) (r_u r2) HK Hspecial (it - bi)%Z (Z.to_nat th) s1 c1 HP G2 H1 ltac:(lia))
      as (r & E2 & _). exists r. exact E2.
  Qed.
  Theorem C83_training_runs r1 r2 iterations burnIn thin z :
    (forall k, k < K -> (0 < a k)%Q) -> (forall v, v < T -> (0 < b v)%Q) ->
    (forall n, n < total lens -> w n < T) -> assigned lens K z -> 0 < T ->
    good_draws r1 -> good_draws r2 -> (0 <= iterations)%Z -> thin <> 0%Z ->
    exists r, train K T w lens a b special r1 r2 (new_train_plan iterations burnIn thin) z = Ok r.
  Proof.
    intros Ha Hb Hw Hz HT G1 G2 Hi Ht. destruct (C41_initial_counts_match z Hz) as (Hs & _).
    unfold train, new_train_plan. eapply (run_plan_total false (fun _ _ => 0%Z) (fun _ => 0%Z)); try assumption.
    - split; [exact Ha|]. split; [intros n Hn; apply Qlt_le_weak, Hb, Hw, Hn|]. split; [intros; lia|]. split.
      + intros j Hj. split; [lia|]. pose proof (qsum_pos_all b T HT Hb). change (inject_Z 0) with 0%Q. lra.
      + intros n Hn. exists (z n). split; [apply Hz; exact Hn|]. pose proof (Hb _ (Hw n Hn)). change (inject_Z 0) with 0%Q. lra.
    - destruct (Z.ltb_spec burnIn 0); [apply Z.div_pos; lia|assumption].
    - destruct (Z.ltb_spec thin 0); [|lia]. destruct (iterations <=? 100)%Z, (iterations <=? 1000)%Z; lia.
  Qed.
End Gibbs.

(** A query of a model whose word distributions are distributions. *)
Theorem C83_query_runs K T w lens a special r1 r2 iterations burnIn thin model wd z :
  K <= 256 -> (forall s d v, (special s d v < Z.of_nat K)%Z) ->
  (forall k, k < K -> (0 < a k)%Q) ->
  word_dists model = Some wd -> (forall k, k < K -> distribution T (wd k)) -> (Z.of_nat T <= 1000000)%Z ->
  (forall n, n < total lens -> w n < T) -> assigned lens K z ->
  good_draws r1 -> good_draws r2 -> (0 <= iterations)%Z -> thin <> 0%Z ->
  exists r, query K T w lens a special r1 r2 (new_train_plan iterations burnIn thin) model z = Ok r.
Proof.
  intros HK Hsp Ha Ew Hwd HT Hw Hz G1 G2 Hi Ht. unfold query. rewrite Ew.
  unfold new_train_plan. eapply (run_plan_total K T w lens a (fun _ => 0%Q) special HK Hsp true); try assumption.
  - apply (query_proper K T w lens a z wd); assumption.
  - eapply query_init; eassumption.
  - destruct (Z.ltb_spec burnIn 0); [apply Z.div_pos; lia|assumption].
  - destruct (Z.ltb_spec thin 0); [|lia]. destruct (iterations <=? 100)%Z, (iterations <=? 1000)%Z; lia.
Qed.

(** [rand()] may return zero; then no topic is selected and the counts are
    written before the start of the row. *)
Definition ex_lens : list nat := [3; 2].
Definition ex_w : nat -> nat := fun n => n mod 3.
Definition ex_zs : nat -> nat := fun n => n mod 2.
Definition ex_u (q : Q) : rng := mkRng (fun s d => s + d) (fun _ _ _ => q).
Definition ex_special : gst -> nat -> nat -> Z := fun _ _ _ => (-1)%Z.
Theorem C83_every_draw_selects_refuted :
  exists K T w lens a b z r1 r2,
    1 < K <= 256 /\ (forall k, (0 < a k)%Q) /\ (forall v, (0 < b v)%Q) /\ (forall n, w n < T) /\ assigned lens K z /\
    (forall sw d i, (0 <= r_u r1 sw d i <= 1)%Q) /\
    forall special, train K T w lens a b special r1 r2 (new_train_plan 10 (-1) (-1)) z = Raise MemoryOOB.
Proof.
  exists 2, 3, ex_w, ex_lens, (fun _ => 1#2)%Q, (fun _ => 1#10)%Q, ex_zs, (ex_u 0), (ex_u 0).
  split; [lia|]. split; [reflexivity|]. split; [reflexivity|].
  split; [intros n; apply Nat.mod_upper_bound; lia|].
  split; [intros n _; apply Nat.mod_upper_bound; lia|].
  split; [intros; cbn; lra|]. intros special. vm_compute. reflexivity.
Qed.

(** ** C84: topics are drawn in proportion to their conditional weight *)

(** A uniform draw [r] in (0,1] moves token [n] to topic [k] exactly when [r]
    times the total weight falls into the interval of [k], whose length is the
    weight of [k] given all other tokens; nothing else changes. *)
Theorem C84_drawn_by_conditional K T w lens a b special d i r s k :
  1 < K <= 256 -> (forall j, j < K -> (0 < a j)%Q) -> (forall v, v < T -> (0 < b v)%Q) ->
  (forall n, n < total lens -> w n < T) -> 0 < T -> (0 < r)%Q -> (r <= 1)%Q ->
  d < length lens -> i < nth d lens 0 -> tallied K w lens s -> k < K ->
  let n := offset lens d + i in
  let weight := conditional T w lens (fun _ _ => 0%Z) (fun _ => 0%Z) a b (g_z s) d n in
  exists s', visit K T w a b false special d n r s = Ok s' /\
    (forall m, m <> n -> g_z s' m = g_z s m) /\
    (forall j, j < K -> (0 < weight j)%Q) /\
    (g_z s' n = k <-> owns weight k (r * qsum weight (seq 0 K))%Q).
Proof.
  intros HK Ha Hb Hw HT Hr0 Hr1 Hd Hi Hs Hk n weight.
  assert (HP : proper K T w lens (fun _ _ => 0%Z) (fun _ => 0%Z) a b).
  { split; [exact Ha|]. split; [intros m Hm; apply Qlt_le_weak, Hb, Hw, Hm|]. split; [intros; lia|]. split.
    + intros j Hj. split; [lia|]. pose proof (qsum_pos_all b T HT Hb). change (inject_Z 0) with 0%Q. lra.
    + intros m Hm. exists 0. split; [lia|]. pose proof (Hb _ (Hw m Hm)). change (inject_Z 0) with 0%Q. lra. }
  destruct (visit_total K T w lens false (fun _ _ => 0%Z) (fun _ => 0%Z) a b special HP d i r s ltac:(lia) Hd Hi
    ltac:(apply tallied_ok; exact Hs) Hr0 Hr1) as (k0 & s' & E & Hk0 & Ez & O).
  assert (Hn : n < total lens) by (pose proof (offset_end lens d Hd); subst n; lia).
  assert (Pos : forall j, j < K -> (0 < weight j)%Q).
  { intros j Hj. unfold weight, conditional. pose proof (Ha j Hj). pose proof (Hb _ (Hw n Hn)).
    pose proof (qsum_pos_all b T HT Hb).
    pose proof (injZ_nonneg _ (count_nonneg (fun m => negb (m =? n) && (g_z s m =? j)) (doc_tokens lens d))).
    pose proof (injZ_nonneg _ (count_nonneg (fun m => negb (m =? n) && ((g_z s m =? j) && (w m =? w n))) (seq 0 (total lens)))).
    pose proof (injZ_nonneg _ (count_nonneg (fun m => negb (m =? n) && (g_z s m =? j)) (seq 0 (total lens)))).
    cbn [Z.add]. unfold others_doc, others_word, others_all.
    apply Qlt_shift_div_l; [lra|]. rewrite Qmult_0_l. apply Qmult_lt_0_compat; lra. }
  fold n in Ez. exists s'. split; [exact E|]. rewrite Ez. split; [|split; [exact Pos|]].
  - intros m Hm. unfold upd1. destruct (Nat.eqb_spec m n); [contradiction|reflexivity].
  - unfold upd1. rewrite Nat.eqb_refl.
    split; [intros <-; exact O|]. intros O'. apply (owns_unique weight k0 k _) with (2 := O) (3 := O').
    intros j Hj. apply Qlt_le_weak, Pos. lia.
Qed.
Example C84_case :
  let s := sum_suff_stats ex_w ex_lens (mkG ex_zs (fun _ _ => 0%Z) (fun _ _ => 0%Z) (fun _ => 0%Z)) in
  let weight := conditional 3 ex_w ex_lens (fun _ _ => 0%Z) (fun _ => 0%Z) (fun _ => 1#2)%Q (fun _ => 1#10)%Q (g_z s) 0 2 in
  tallied 2 ex_w ex_lens s /\
  match visit 2 3 ex_w (fun _ => 1#2)%Q (fun _ => 1#10)%Q false ex_special 0 (offset ex_lens 0 + 2) (1#2)%Q s with
  | Ok s' => g_z s' 2 = 0
  | _ => False end /\
  match visit 2 3 ex_w (fun _ => 1#2)%Q (fun _ => 1#10)%Q false ex_special 0 (offset ex_lens 0 + 2) (3#4)%Q s with
  | Ok s' => g_z s' 2 = 1
  | _ => False end /\
  (weight 0%nat == 3#46)%Q /\ (weight 1%nat == 3#46)%Q.
Proof.
  split; [apply C41_initial_counts_match; intros n _; apply Nat.mod_upper_bound; lia|].
  vm_compute. repeat split; reflexivity.
Qed.

(** ** C85: every sweep visits every token exactly once *)
Theorem C85_every_token_once lens start sw :
  Permutation (flat_map (fun d => map (fun i => offset lens d + i) (visits lens start sw d)) (seq 0 (length lens)))
              (seq 0 (total lens)).
Proof.
  assert (G : forall m, m <= length lens ->
    Permutation (flat_map (fun d => map (fun i => offset lens d + i) (visits lens start sw d)) (seq 0 m))
              (seq 0 (offset lens m))).
  { induction m as [|m IH]; intros Hm; [constructor|]. rewrite seq_S, flat_map_app, offset_S, seq_app. cbn [flat_map Nat.add].
    rewrite app_nil_r. apply Permutation_app; [apply IH; lia|].
    unfold visits, len_. rewrite (Permutation_map _ (positions_perm (nth m lens 0) (start sw m))).
    replace (seq (offset lens m) (nth m lens 0)) with (map (fun i => offset lens m + i) (seq 0 (nth m lens 0))); [reflexivity|].
    generalize (nth m lens 0) as l. intros l.
    assert (H : forall p q, map (fun i => q + i) (seq p l) = seq (q + p) l).
    { induction l as [|l IHl]; intros p q; [reflexivity|]. cbn [seq map]. rewrite IHl. f_equal. f_equal. lia. }
    rewrite H. f_equal. lia. }
  rewrite <- offset_all. apply G. lia.
Qed.
Example C85_case : flat_map (fun d => map (fun i => offset ex_lens d + i) (visits ex_lens (fun s d => s + d) 0 d)) (seq 0 2) = [1; 2; 0; 3; 4].
Proof. reflexivity. Qed.

(** ** C86: averaged samples are distributions *)
Lemma burn_in_acc K T w lens a b isQuery special r1 r2 plan s c s' c' :
  run_plan K T w lens a b isQuery special r1 r2 plan s c = Ok (s', c') ->
  exists s1 c1, sample K T w lens a b isQuery special (r_start r1) (r_u r1) (snd (fst plan)) (Z.to_nat (snd (fst plan) + 1)) s c = Ok (s1, c1) /\
    topic_sum c1 = topic_sum c /\ vocab_sum c1 = vocab_sum c /\
    sample K T w lens a b isQuery special (r_start r2) (r_u r2) (fst (fst plan) - snd (fst plan)) (Z.to_nat (snd plan)) s1 c1 = Ok (s', c').
Proof.
  destruct plan as [[it bi] th]. unfold run_plan. intros E. apply bind_ok in E. destruct E as ((s1 & c1) & E1 & E2).
  destruct (C42_burn_in_records_nothing _ _ _ _ _ _ _ _ _ _ _ _ _ _ _ E1) as (_ & A & B).
  exists s1, c1. cbn [fst snd] in *. auto.
Qed.

Lemma samples_ok K T w lens isQuery bkv bk a b special start u n thin s c samples :
  K <= 256 -> (forall s d v, (special s d v < Z.of_nat K)%Z) ->
  counts_ok K w lens isQuery bkv bk s ->
  (forall i t, nth_error samples i = Some t ->
         exists ct, sample K T w lens a b isQuery special start u (Z.of_nat ((i + 1) * thin)) n s c = Ok (t, ct)) ->
  forall t, In t samples -> counts_ok K w lens isQuery bkv bk t.
Proof.
  intros HK Hsp Hs H t Hin. apply In_nth_error in Hin. destruct Hin as (i & Hi).
  destruct (H i t Hi) as (ct & E). eapply sample_ok; eassumption.
Qed.

Theorem C86_training_distributions K T w lens a b special r1 r2 plan z s' c' p q :
  0 < K <= 256 -> (forall s d v, (special s d v < Z.of_nat K)%Z) -> 0 < T ->
  (forall k, k < K -> (0 < a k)%Q) -> (forall v, v < T -> (0 < b v)%Q) ->
  (forall n, n < total lens -> w n < T) -> assigned lens K z ->
  train K T w lens a b special r1 r2 plan z = Ok (s', c') ->
  topic_dists c' = Some p -> word_dists c' = Some q ->
  (forall d, d < length lens -> distribution K (p d)) /\ (forall k, distribution T (q k)).
Proof.
  intros HK Hsp HT Ha Hb Hw Hz E Ep Eq.
  destruct (burn_in_acc _ _ _ _ _ _ _ _ _ _ _ _ _ _ _ E) as (s1 & c1 & E1 & A & B & E2).
  cbn [topic_sum vocab_sum] in A, B.
  assert (H1 : counts_ok K w lens false (fun _ _ => 0%Z) (fun _ => 0%Z) s1).
  { destruct (C41_initial_counts_match K w lens z Hz) as (Hs & _). apply tallied_ok in Hs.
    eapply sample_ok; try eassumption; lia. }
  destruct (C42_samples_recorded _ _ _ _ _ _ _ _ _ _ _ _ _ _ _ _ E2) as (Tk & l & L1 & L2 & L3 & L4).
  assert (Hl : forall t, In t l -> counts_ok K w lens false (fun _ _ => 0%Z) (fun _ => 0%Z) t).
  { eapply samples_ok; try eassumption; lia. }
  rewrite <- L1 in Tk.
  unfold topic_dists, averaged in Ep. unfold word_dists, averaged in Eq. rewrite Tk in Ep, Eq.
  destruct (Nat.eqb_spec (length l) 0) as [|Hne]; [discriminate|].
  injection Ep as <-. injection Eq as <-. split.
  - intros d Hd. apply (average_dist K (fun t => sample_topic K lens a t d) l (topic_sum c' d) Hne).
    + intros t Ht. eapply sample_topic_dist; try eassumption; [apply Hl; exact Ht|lia].
    + intros k. rewrite L3, A. unfold zeroK, sample_topic, len_. ring.
  - intros k. apply (average_dist T (fun t => sample_vocab T b t k) l (vocab_sum c' k) Hne).
    + intros t Ht. eapply sample_vocab_dist; try eassumption. apply Hl; exact Ht.
    + intros v. rewrite L4, B. unfold zeroK, sample_vocab. ring.
Qed.
Theorem C86_query_distributions K T w lens a special r1 r2 plan model z s' c' p :
  0 < K <= 256 -> (forall s d v, (special s d v < Z.of_nat K)%Z) ->
  (forall k, k < K -> (0 < a k)%Q) -> assigned lens K z ->
  query K T w lens a special r1 r2 plan model z = Ok (s', c') ->
  topic_dists c' = Some p -> forall d, d < length lens -> distribution K (p d).
Proof.
  intros HK Hsp Ha Hz E Ep d Hd. unfold query in E. destruct (word_dists model) as [wd|]; [|discriminate].
  destruct (burn_in_acc _ _ _ _ _ _ _ _ _ _ _ _ _ _ _ E) as (s1 & c1 & E1 & A & B & E2).
  cbn [topic_sum vocab_sum] in A, B.
  pose proof (query_init K w lens z (fun k v => truncQ (wd k v * 1000000)) 
     (fun k => sumZ (map (fun v => truncQ (wd k v * 1000000)) (seq 0 T))) Hz) as H0.
  pose proof (sample_ok K T w lens true _ _ a (fun _ => 0%Q) special ltac:(lia) Hsp _ _ _ _ _ _ _ _ H0 E1) as H1.
  destruct (C42_samples_recorded _ _ _ _ _ _ _ _ _ _ _ _ _ _ _ _ E2) as (Tk & l & L1 & L2 & L3 & L4).
  pose proof (samples_ok K T w lens true _ _ a (fun _ => 0%Q) special _ _ _ _ s1 _ l ltac:(lia) Hsp H1 L2) as Hl.
  rewrite <- L1 in Tk. unfold topic_dists, averaged in Ep. rewrite Tk in Ep.
  destruct (Nat.eqb_spec (length l) 0) as [|Hne]; [discriminate|]. injection Ep as <-.
  apply (average_dist K (fun t => sample_topic K lens a t d) l (topic_sum c' d) Hne).
  - intros t Ht. eapply sample_topic_dist; try eassumption; [apply Hl; exact Ht|lia].
  - intros k. rewrite L3, A. unfold zeroK, sample_topic, len_. ring.
Qed.
(** With the default plan there are samples from five iterations on. *)
Theorem C86_default_plan_has_samples_iff K T w lens a b special r1 r2 iterations z s' c' : (0 <= iterations)%Z ->
  train K T w lens a b special r1 r2 (new_train_plan iterations (-1) (-1)) z = Ok (s', c') ->
  (topic_dists c' <> None <-> (5 <= iterations)%Z).
Proof.
  intros Hi E. apply C42_training_samples in E. unfold new_train_plan in E. cbn [snd] in E.
  change (-1 <? 0)%Z with true in E. cbv iota in E.
  unfold topic_dists, averaged. rewrite E. clear E.
  assert (G : forall m t, 0 < t -> (m / t = 0 <-> m < t)).
  { intros m t Ht. split; [intros H0; apply Nat.div_small_iff in H0; lia|apply Nat.div_small]. }
  destruct (Z.leb_spec iterations 100); [|destruct (Z.leb_spec iterations 1000)].
  - destruct (Nat.eqb_spec (Z.to_nat iterations / Z.to_nat 5) 0) as [E|E]; rewrite G in E by lia;
      split; try congruence; try lia; intros _; lia.
  - destruct (Nat.eqb_spec (Z.to_nat iterations / Z.to_nat 10) 0) as [E|E]; rewrite G in E by lia;
      split; try congruence; try lia; intros _; lia.
  - destruct (Nat.eqb_spec (Z.to_nat iterations / Z.to_nat 50) 0) as [E|E]; rewrite G in E by lia;
      split; try congruence; try lia; intros _; lia.
Qed.
Theorem C86_short_runs_refuted :
  exists iterations s' c', (0 < iterations)%Z /\
    train 2 3 ex_w [2] (fun _ => 1#2)%Q (fun _ => 1#10)%Q ex_special (ex_u (1#2)) (ex_u (1#2))
      (new_train_plan iterations (-1) (-1)) ex_zs = Ok (s', c') /\
    topic_dists c' = None.
Proof.
  assert (E : exists s' c', train 2 3 ex_w [2] (fun _ => 1#2)%Q (fun _ => 1#10)%Q ex_special (ex_u (1#2)) (ex_u (1#2))
      (new_train_plan 4 (-1) (-1)) ex_zs = Ok (s', c')).
  { destruct (C83_training_runs 2 3 ex_w [2] (fun _ => 1#2)%Q (fun _ => 1#10)%Q ex_special ltac:(lia) ltac:(intros; unfold ex_special; lia)
      (ex_u (1#2)) (ex_u (1#2)) 4 (-1) (-1) ex_zs) as ((s' & c') & E); try (intros; reflexivity); try lia.
    - intros n _. apply Nat.mod_upper_bound. lia.
    - intros n _. apply Nat.mod_upper_bound. lia.
    - intros sw d i. cbn. split; lra.
    - intros sw d i. cbn. split; lra.
    - exists s', c'. exact E. }
  destruct E as (s' & c' & E). exists 4%Z, s', c'. split; [lia|]. split; [exact E|].
  apply C86_default_plan_has_samples_iff in E; [|lia].
  destruct (topic_dists c'); [|reflexivity]. assert (5 <= 4)%Z by (apply E; discriminate). lia.
Qed.

(** ** C43: a query and the word distributions *)
Theorem C43_query_keeps_sums K T w lens a special r1 r2 plan model z s' c' :
  query K T w lens a special r1 r2 plan model z = Ok (s', c') ->
  vocab_sum c' = vocab_sum model.
Proof.
  intros E. unfold query in E. destruct (word_dists model) as [wd|]; [|discriminate].
  destruct (burn_in_acc _ _ _ _ _ _ _ _ _ _ _ _ _ _ _ E) as (s1 & c1 & E1 & A & B & E2).
  rewrite sample_run in E2. apply run_samples in E2. destruct E2 as (_ & l & _ & _ & _ & _ & H & _).
  rewrite (H eq_refl), B. reflexivity.
Qed.
(** The word distributions of the returned model are the model's, scaled by the
    ratio of the numbers of samples. *)
Theorem C43_word_dists_scaled K T w lens a special r1 r2 plan model z s' c' wd wd' :
  query K T w lens a special r1 r2 plan model z = Ok (s', c') ->
  word_dists model = Some wd -> word_dists c' = Some wd' ->
  forall k v, (wd' k v * qnat (taken c') == wd k v * qnat (taken model))%Q.
Proof.
  intros E E1 E2 k v. apply C43_query_keeps_sums in E. unfold word_dists, averaged in *. rewrite E in E2.
  destruct (Nat.eqb_spec (taken model) 0); [discriminate|]. destruct (Nat.eqb_spec (taken c') 0); [discriminate|].
  injection E1 as <-. injection E2 as <-.
  assert (0 < qnat (taken model))%Q by (apply qnat_pos; lia). assert (0 < qnat (taken c'))%Q by (apply qnat_pos; lia).
  field. split; lra.
Qed.
Theorem C43_word_dists_unchanged_same_samples K T w lens a special r1 r2 plan model z s' c' :
  query K T w lens a special r1 r2 plan model z = Ok (s', c') -> taken c' = taken model ->
  word_dists c' = word_dists model.
Proof.
  intros E Ht. apply C43_query_keeps_sums in E. unfold word_dists. rewrite E, Ht. reflexivity.
Qed.
Definition ex_model : acc := match
  train 2 2 (fun n => n) [2] (fun _ => 1#2)%Q (fun _ => 1#2)%Q ex_special (ex_u (1#2)) (ex_u (1#2)) (new_train_plan 2 0 1) ex_zs
  with Ok (_, c) => c | Raise _ => mkAcc zeroK zeroK 0 end.
Theorem C43_word_dists_unchanged_refuted :
  exists s' c' wd wd',
    taken ex_model = 2 /\
    query 2 2 (fun n => n) [1] (fun _ => 1#2)%Q ex_special (ex_u (1#2)) (ex_u (1#2)) (new_train_plan 1 0 1) ex_model ex_zs = Ok (s', c') /\
    word_dists ex_model = Some wd /\ word_dists c' = Some wd' /\
    ~ (wd' 0%nat 0%nat == wd 0%nat 0%nat)%Q.
Proof.
  destruct (query 2 2 (fun n => n) [1] (fun _ => 1#2)%Q ex_special (ex_u (1#2)) (ex_u (1#2)) (new_train_plan 1 0 1) ex_model ex_zs)
    as [(s' & c')|] eqn:E; [|vm_compute in E; discriminate].
  assert (Tk : taken c' = 1) by (assert (G : match query 2 2 (fun n => n) [1] (fun _ => 1#2)%Q ex_special (ex_u (1#2)) (ex_u (1#2)) (new_train_plan 1 0 1) ex_model ex_zs with Ok (_, c) => taken c | _ => 0 end = 1) by (vm_compute; reflexivity); rewrite E in G; exact G).
  assert (V : vocab_sum c' = vocab_sum ex_model) by (eapply C43_query_keeps_sums; exact E).
  assert (Tm : taken ex_model = 2) by (vm_compute; reflexivity).
  exists s', c', (fun i j => vocab_sum ex_model i j / qnat 2)%Q, (fun i j => vocab_sum ex_model i j / qnat 1)%Q.
  split; [exact Tm|]. split; [reflexivity|].
  unfold word_dists, averaged. rewrite Tk, V, Tm. split; [reflexivity|]. split; [reflexivity|].
  assert (G : Qeq_bool (vocab_sum ex_model 0%nat 0%nat / qnat 1)%Q (vocab_sum ex_model 0%nat 0%nat / qnat 2)%Q = false) by (vm_compute; reflexivity).
  intros C. apply Qeq_eq_bool in C. congruence.
Qed.

(** ** C44: the default plan of the mixture sampler *)

(** The state after [n] iterations. *)
Definition state_at {S} (step : nat -> S -> S) (s : S) (n : nat) : S :=
  fold_left (fun s i => step i s) (seq 0 n) s.
(** The iterations below [n] at which a sample is due. *)
Definition due (burnIn thinning : Z) (n : nat) : list nat :=
  filter (fun i => (0 <? Z.of_nat i)%Z && (burnIn <? Z.of_nat i)%Z && (Z.of_nat i mod thinning =? 0)%Z) (seq 0 n).

Lemma mom_loop_runs {S} (step : nat -> S -> S) n burnIn thinning lg s : thinning <> 0%Z -> (forall i, i < n -> lg i = false) ->
  mom_loop step n burnIn thinning lg s =
  Ok (state_at step s n, map (fun i => state_at step s (i + 1)) (due burnIn thinning n)).
Proof.
  intros Ht. induction n as [|n IH]; intros Hl; [reflexivity|]. rewrite mom_loop_S, IH by (intros; apply Hl; lia). unfold mom_step. cbn [bind fst snd]. rewrite (Hl n) by lia.
  assert (Es : step n (state_at step s n) = state_at step s (Datatypes.S n)).
  { unfold state_at. rewrite seq_S, fold_left_app. reflexivity. }
  rewrite Es. unfold is_sampling_iteration, due. rewrite seq_S, filter_app. cbn [filter Nat.add].
  rewrite map_app.
  destruct (0 <? Z.of_nat n)%Z; cbn [negb andb bind]; [|rewrite app_nil_r; reflexivity].
  destruct (burnIn <? Z.of_nat n)%Z; cbn [negb andb bind]; [|rewrite app_nil_r; reflexivity].
  replace (thinning =? 0)%Z with false by lia. cbn [bind].
  destruct (Z.of_nat n mod thinning =? 0)%Z; cbn [map]; [|rewrite app_nil_r; reflexivity].
  replace (n + 1) with (Datatypes.S n) by lia. reflexivity.
Qed.
Lemma mom_loop_zero {S} (step : nat -> S -> S) n burnIn lg s : (forall i, i < n -> lg i = false) ->
  mom_loop step n burnIn 0 lg s =
  if (1 <? Z.of_nat n)%Z && (burnIn + 1 <? Z.of_nat n)%Z then Raise ZeroDivisionError else Ok (state_at step s n, []).
Proof.
  induction n as [|n IH]; intros Hl; [reflexivity|]. rewrite mom_loop_S, IH by (intros; apply Hl; lia).
  assert (Es : step n (state_at step s n) = state_at step s (Datatypes.S n)).
  { unfold state_at. rewrite seq_S, fold_left_app. reflexivity. }
  destruct ((1 <? Z.of_nat n)%Z && (burnIn + 1 <? Z.of_nat n)%Z) eqn:E.
  - cbn [mom_step bind]. replace ((1 <? _)%Z && _) with true by lia. reflexivity.
  - unfold mom_step. cbn [bind fst snd]. rewrite Es, (Hl n) by lia. unfold is_sampling_iteration.
    destruct (Z.ltb_spec 0 (Z.of_nat n)); cbn [negb bind]; [|replace ((1 <? Z.of_nat (Datatypes.S n))%Z && _) with false by lia; reflexivity].
    destruct (Z.ltb_spec burnIn (Z.of_nat n)); cbn [negb bind]; [|replace ((1 <? Z.of_nat (Datatypes.S n))%Z && _) with false by lia; reflexivity].
    replace ((1 <? Z.of_nat (Datatypes.S n))%Z && _) with true by lia. reflexivity.
Qed.

(** A run that logs fails in its first iteration: no name [log_likelihood] is
    defined.  The default plan logs. *)
Theorem C44_logging_fails {S} (step : nat -> S -> S) plan logFrequency debug s :
  (0 < fst (fst plan) + snd (fst plan))%Z -> debug = true \/ (0 < logFrequency)%Z ->
  mom_train step plan logFrequency debug s = Raise NameError.
Proof.
  destruct plan as [[it bi] th]. cbn [fst snd]. intros Hn Hl. unfold mom_train.
  assert (L : is_logged logFrequency debug 0 = true).
  { unfold is_logged. destruct Hl as [->|Hl]; [reflexivity|]. rewrite Z.mod_0_l by lia. replace (0 <? logFrequency)%Z with true by lia.
    apply orb_true_r. }
  destruct (Z.to_nat (it + bi)) as [|n] eqn:En; [lia|]. clear Hn En. unfold mom_loop. cbn [seq fold_left].
  unfold mom_step at 2. cbn [bind]. unfold is_sampling_iteration. cbn [Z.of_nat Z.ltb Z.compare negb bind]. rewrite L.
  generalize (seq 1 n) as l. induction l as [|x l IH]; [reflexivity|exact IH].
Qed.
Theorem C44_default_plan_never_runs iterations {S} (step : nat -> S -> S) s : (0 < iterations)%Z ->
  mom_train step (mom_plan iterations None None) 10 false s = Raise NameError.
Proof.
  intros Hi. apply C44_logging_fails; [|right; lia]. unfold mom_plan. cbn [fst snd].
  pose proof (Z.div_pos iterations 4 ltac:(lia) ltac:(lia)). lia.
Qed.
Theorem C44_default_plan_runnable_refuted :
  exists iterations, (0 < iterations)%Z /\
    (forall S (step : nat -> S -> S) s, mom_train step (mom_plan iterations None None) 10 false s = Raise NameError) /\
    (forall S (step : nat -> S -> S) s, mom_train step (mom_plan iterations None None) 0 false s = Raise ZeroDivisionError).
Proof. exists 5%Z. split; [lia|]. split; intros; reflexivity. Qed.
Lemma not_logged n logFrequency : (logFrequency <= 0)%Z -> forall i, i < n -> is_logged logFrequency false i = false.
Proof. intros H i _. unfold is_logged. replace (0 <? logFrequency)%Z with false by lia. reflexivity. Qed.

(** Without logging the default thinning can be executed for one iteration and
    for ten or more. *)
Theorem C44_quiet_plan_runs_iff {S} (step : nat -> S -> S) iterations lf s : (0 < iterations)%Z -> (lf <= 0)%Z ->
  (exists r, mom_train step (mom_plan iterations None None) lf false s = Ok r) <-> (iterations = 1 \/ 10 <= iterations)%Z.
Proof.
  intros Hi Hlf. unfold mom_train, mom_plan. pose proof (Z.div_pos iterations 4 ltac:(lia) ltac:(lia)).
  pose proof (Z.div_lt iterations 4 Hi ltac:(lia)) as H4.
  destruct (Z.ltb_spec iterations 10) as [H10|H10].
  - rewrite (Z.div_small iterations 10) by lia. change (Z.min 1 0) with 0%Z. rewrite mom_loop_zero by (apply not_logged; exact Hlf).
    destruct (Z.eqb_spec iterations 1) as [->|Hne].
    + cbn. split; [left; reflexivity|intros _; eexists; reflexivity].
    + replace ((1 <? _)%Z && _) with true by lia. split; [intros (r & [=])|lia].
  - assert (1 <= iterations / 10)%Z by (apply Z.div_le_lower_bound; lia).
    rewrite Z.min_l by lia. rewrite mom_loop_runs by (try apply not_logged; lia). split; [lia|]. intros _. eexists. reflexivity.
Qed.
Theorem C44_quiet_plan_error {S} (step : nat -> S -> S) iterations lf s : (2 <= iterations <= 9)%Z -> (lf <= 0)%Z ->
  mom_train step (mom_plan iterations None None) lf false s = Raise ZeroDivisionError /\
  mom_query step (mom_plan iterations None None) s = Raise ZeroDivisionError.
Proof.
  intros Hi Hlf. unfold mom_train, mom_query, mom_plan. rewrite (Z.div_small iterations 10) by lia. change (Z.min 1 0) with 0%Z.
  rewrite !mom_loop_zero by (try apply not_logged; auto).
  assert (0 <= iterations / 4)%Z by (apply Z.div_pos; lia).
  assert (4 * (iterations / 4) <= iterations)%Z by (apply Z.mul_div_le; lia).
  split.
  - replace ((1 <? _)%Z && _) with true by lia. reflexivity.
  - replace ((1 <? _)%Z && _) with true by lia. reflexivity.
Qed.

(** The default thinning keeps every iteration after burn-in. *)
Lemma due_one burnIn n : (0 <= burnIn)%Z -> length (due burnIn 1 n) = n - Z.to_nat (burnIn + 1).
Proof.
  intros Hb. induction n as [|n IH]; [reflexivity|]. unfold due in *. rewrite seq_S, filter_app, app_length, IH.
  cbn [filter Nat.add]. rewrite Z.mod_1_r.
  destruct ((0 <? Z.of_nat n)%Z && (burnIn <? Z.of_nat n)%Z && (0 =? 0)%Z) eqn:E; cbn [length]; lia.
Qed.
Theorem C44_quiet_sample_counts {S} (step : nat -> S -> S) iterations lf s : (10 <= iterations)%Z -> (lf <= 0)%Z ->
  (exists last l, mom_train step (mom_plan iterations None None) lf false s = Ok (last, l) /\ Z.of_nat (length l) = (iterations - 1)%Z) /\
  (exists l, mom_query step (mom_plan iterations None None) s = Ok l /\ Z.of_nat (length l) = (iterations - iterations / 4 - 1)%Z).
Proof.
  intros H10 Hlf. unfold mom_train, mom_query, mom_plan.
  assert (1 <= iterations / 10)%Z by (apply Z.div_le_lower_bound; lia).
  assert (0 <= iterations / 4)%Z by (apply Z.div_pos; lia).
  pose proof (Z.div_lt iterations 4 ltac:(lia) ltac:(lia)).
  rewrite Z.min_l by lia. rewrite !mom_loop_runs by (try apply not_logged; auto; lia). split.
  - eexists. eexists. split; [reflexivity|]. rewrite map_length, due_one by lia. lia.
  - eexists. split; [reflexivity|]. cbn [snd]. rewrite map_length, due_one by lia. lia.
Qed.
Example C44_case : mom_train (fun i s => s + i) (mom_plan 10 None None) 0 false 0 = Ok (66, [6; 10; 15; 21; 28; 36; 45; 55; 66]).
Proof. reflexivity. Qed.

(** ** C88: what mixture training returns *)

(** The samples collected during training are the states after the iterations
    that are due; the result is the state after the last iteration. *)
Theorem C88_returns_last_state {S} (step : nat -> S -> S) iterations burnIn thinning lf s : thinning <> 0%Z -> (lf <= 0)%Z ->
  mom_train step (iterations, burnIn, thinning) lf false s =
    Ok (state_at step s (Z.to_nat (iterations + burnIn)),
        map (fun i => state_at step s (i + 1)) (due burnIn thinning (Z.to_nat (iterations + burnIn)))) /\
  mom_train_result step (iterations, burnIn, thinning) lf false s = Ok (state_at step s (Z.to_nat (iterations + burnIn))).
Proof.
  intros Ht Hlf. unfold mom_train_result, mom_train. rewrite mom_loop_runs by (try apply not_logged; assumption). split; reflexivity.
Qed.
Theorem C88_average_returned_refuted :
  exists (step : nat -> Q -> Q) plan s last l, plan = mom_plan 10 None None /\
    mom_train step plan 0 false s = Ok (last, l) /\ mom_train_result step plan 0 false s = Ok last /\
    1 < length l /\ ~ (last == qsum (fun x => x) l / qnat (length l))%Q.
Proof.
  exists (fun i _ => qnat (i mod 2)), (mom_plan 10 None None), 0%Q.
  destruct (mom_train (fun i _ => qnat (i mod 2)) (mom_plan 10 None None) 0 false 0%Q) as [(last & l)|] eqn:E; [|vm_compute in E; discriminate].
  exists last, l. split; [reflexivity|]. split; [reflexivity|]. unfold mom_train_result. rewrite E.
  split; [reflexivity|]. vm_compute in E. injection E as <- <-. split; [cbn; lia|]. vm_compute. discriminate.
Qed.

(** ** C87: bookkeeping of memberships *)
Section C87.
  Context (D : nat) (alpha : nat -> Q) (choose : (nat -> nat -> Q) -> (nat -> Q) -> nat -> nat) (M : nat -> nat -> Q).
  Notation result := (sample_memberships D alpha choose M).
  Notation M' := (fst (fst result)).

  (** The membership of document [e] at the time [d] is drawn. *)
  Definition current (d e k : nat) : Q := if e <? d then M' e k else M e k.

  Lemma colsum_split (f : nat -> Q) d : d < D ->
    (qsum f (seq 0 D) == f d + qsum (fun e => if e =? d then 0 else f e) (seq 0 D))%Q.
  Proof.
    intros Hd. rewrite (qsum_ext f (fun e => (if e =? d then f d else 0) + (if e =? d then 0 else f e))%Q).
    - rewrite qsum_plus, qsum_delta by exact Hd. reflexivity.
    - intros e _. destruct (Nat.eqb_spec e d) as [->|]; ring.
  Qed.

  Lemma members_prefix m : m <= D ->
    let r := fold_left (member_step choose) (seq 0 m) (M, (fun k => colsum D M k + alpha k - 1)%Q, []) in
    let N := fst (fst r) in
    (forall e, m <= e -> N e = M e) /\
    (forall e, e < m -> exists j, N e = onehot j) /\
    (forall k, (snd (fst r) k == qsum (fun e => N e k) (seq 0 D) + alpha k - 1)%Q) /\
    length (snd r) = m /\
    (forall d p, nth_error (snd r) d = Some p -> exists Md, (forall e, e <= d -> Md e = if e <? d then N e else M e) /\
        (forall e, d < e -> Md e = M e) /\ N d = onehot (choose Md p d) /\
        forall k, (p k == qsum (fun e => if e =? d then 0 else Md e k) (seq 0 D) + alpha k - 1)%Q).
  Proof.
    induction m as [|m IH]; intros Hm.
    - cbn [seq fold_left fst snd]. cbv zeta. split; [reflexivity|]. split; [lia|]. split; [intros; reflexivity|].
      split; [reflexivity|]. intros [|d] p; discriminate.
    - rewrite seq_S, fold_left_app. cbn [fold_left Nat.add]. specialize (IH ltac:(lia)). cbv zeta in *.
      destruct (fold_left (member_step choose) (seq 0 m) _) as [[N pn] used]. cbn [fst snd] in IH.
      destruct IH as (I1 & I2 & I3 & I4 & I5). unfold member_step. cbn [fst snd].
      set (p1 := fun k => (pn k - N m k)%Q).
      assert (P1 : forall k, (p1 k == qsum (fun e => if e =? m then 0 else N e k) (seq 0 D) + alpha k - 1)%Q).
      { intros k. unfold p1. rewrite I3, (colsum_split (fun e => N e k) m) by lia. ring. }
      set (N' := upd1 N m (onehot (choose N p1 m))).
      assert (Nm : N' m = onehot (choose N p1 m)) by (unfold N', upd1; rewrite Nat.eqb_refl; reflexivity).
      assert (No : forall e, e <> m -> N' e = N e).
      { intros e He. unfold N', upd1. destruct (Nat.eqb_spec e m); [contradiction|reflexivity]. }
      split; [intros e He; rewrite No by lia; apply I1; lia|].
      split; [intros e He; destruct (Nat.eq_dec e m) as [->|Hne]; [eexists; exact Nm|rewrite No by exact Hne; apply I2; lia]|].
      split.
      { intros k. rewrite (colsum_split (fun e => N' e k) m) by lia. cbv beta. change (pn k - N m k)%Q with (p1 k). change (upd1 N m _) with N'. specialize (P1 k). rewrite P1.
        rewrite (qsum_ext (fun e => if e =? m then 0%Q else N' e k) (fun e => if e =? m then 0%Q else N e k)).
        - ring.
        - intros e _. destruct (Nat.eqb_spec e m) as [|Hne]; [reflexivity|rewrite No by exact Hne; reflexivity]. }
      split; [rewrite app_length, I4; cbn [length]; lia|].
      intros d p Hp. destruct (Nat.lt_ge_cases d m) as [Hlt|Hge].
      + rewrite nth_error_app1 in Hp by lia. destruct (I5 d p Hp) as (Md & A & A' & B & C). exists Md.
        split; [intros e He; rewrite (A e He); destruct (e <? d); [rewrite No by lia|]; reflexivity|].
        split; [exact A'|]. split; [rewrite No by lia; exact B|exact C].
      + rewrite nth_error_app2 in Hp by lia. rewrite I4 in Hp.
        destruct (d - m) as [|x] eqn:Ex; [|destruct x; discriminate]. injection Hp as <-.
        assert (d = m) by lia. subst d. exists N. split; [|split; [|split; [exact Nm|exact P1]]].
        * intros e He. destruct (Nat.ltb_spec e m); [rewrite No by lia; reflexivity|apply I1; lia].
        * intros e He. apply I1. lia.
  Qed.

  (** Every document ends up in one component; the weights used for document
      [d] count the other documents where they are at that point. *)
  Theorem C87_memberships :
    (forall d, d < D -> exists j, M' d = onehot j) /\
    length (snd result) = D /\
    (forall d p, nth_error (snd result) d = Some p -> forall k,
      (p k == qsum (fun e => if e =? d then 0 else current d e k) (seq 0 D) + alpha k - 1)%Q) /\
    (forall k, (snd (fst result) k == qsum (fun d => M' d k) (seq 0 D) + alpha k - 1)%Q).
  Proof.
    destruct (members_prefix D (le_n D)) as (_ & A & B & C & E). split; [exact A|]. split; [exact C|]. split; [|exact B].
    intros d p Hp k. destruct (E d p Hp) as (Md & F1 & F1' & _ & F2). rewrite F2.
    rewrite (qsum_ext (fun e => if e =? d then 0%Q else current d e k) (fun e => if e =? d then 0%Q else Md e k)); [reflexivity|].
    intros e _. destruct (Nat.eqb_spec e d) as [|Hne]; [reflexivity|]. unfold current.
    destruct (Nat.ltb_spec e d).
    - rewrite (F1 e) by lia. replace (e <? d) with true by (symmetry; apply Nat.ltb_lt; assumption). reflexivity.
    - rewrite (F1' e) by lia. reflexivity.
  Qed.
End C87.
Example C87_case :
  let r := sample_memberships 3 (fun _ => 1)%Q (fun _ _ d => d mod 2) (fun _ _ => 1#2)%Q in
  map (fun p => (Qred (p 0), Qred (p 1))) (snd r) = [(1, 1); (3#2, 1#2); (1, 1)]%Q /\
  (fst (fst r) 1%nat 0%nat == 0)%Q /\ (fst (fst r) 1%nat 1%nat == 1)%Q.
Proof. vm_compute. repeat split; reflexivity. Qed.

(** ** Concrete runs for C41, C42, C43, C83 and C86 *)
Lemma ex_runs iterations : (0 <= iterations)%Z ->
  exists s' c', train 2 3 ex_w ex_lens (fun _ => 1#2)%Q (fun _ => 1#10)%Q ex_special (ex_u (1#2)) (ex_u (1#3))
      (new_train_plan iterations (-1) (-1)) ex_zs = Ok (s', c').
Proof.
  intros Hi. destruct (C83_training_runs 2 3 ex_w ex_lens (fun _ => 1#2)%Q (fun _ => 1#10)%Q ex_special ltac:(lia) ltac:(intros; unfold ex_special; lia)
      (ex_u (1#2)) (ex_u (1#3)) iterations (-1) (-1) ex_zs) as ((s' & c') & E); try (intros; reflexivity); try lia.
  - intros n _. apply Nat.mod_upper_bound. lia.
  - intros n _. apply Nat.mod_upper_bound. lia.
  - intros sw d i. cbn. split; lra.
  - intros sw d i. cbn. split; lra.
  - exists s', c'. exact E.
Qed.
(** The first iterations of a small run, computed. *)
Example C41_case :
  match train 2 3 ex_w ex_lens (fun _ => 1#2)%Q (fun _ => 1#10)%Q ex_special (ex_u (1#2)) (ex_u (9#10)) (new_train_plan 2 0 1) ex_zs with
  | Ok (s, c) => map (g_z s) (seq 0 5) = [1; 1; 1; 1; 1] /\ map (g_dk s 0) [0; 1] = [0; 3]%Z /\
                 map (g_k s) [0; 1] = [0; 5]%Z /\ map (g_kv s 1) [0; 1; 2] = [2; 2; 1]%Z /\ taken c = 2
  | Raise _ => False
  end.
Proof. vm_compute. repeat split; reflexivity. Qed.
Example C42_case : exists s' c',
  train 2 3 ex_w ex_lens (fun _ => 1#2)%Q (fun _ => 1#10)%Q ex_special (ex_u (1#2)) (ex_u (1#3))
      (new_train_plan 1000 (-1) (-1)) ex_zs = Ok (s', c') /\ taken c' = 100.
Proof.
  destruct (ex_runs 1000 ltac:(lia)) as (s' & c' & E). exists s', c'. split; [exact E|].
  rewrite (C42_training_samples _ _ _ _ _ _ _ _ _ _ _ _ _ _ _ E). unfold new_train_plan. cbn [snd].
  change (if (-1 <? 0)%Z then if (1000 <=? 100)%Z then 5%Z else if (1000 <=? 1000)%Z then 10%Z else 50%Z else (-1)%Z) with 10%Z.
  rewrite <- Z2Nat.inj_div by lia. change (1000 / 10)%Z with 100%Z. reflexivity.
Qed.
Example C83_case : exists r, train 2 3 ex_w ex_lens (fun _ => 1#2)%Q (fun _ => 1#10)%Q ex_special (ex_u (1#2)) (ex_u (1#3))
      (new_train_plan 200 (-1) (-1)) ex_zs = Ok r.
Proof. destruct (ex_runs 200 ltac:(lia)) as (s' & c' & E). eexists. exact E. Qed.
Example C86_case : exists s' c' p q,
  train 2 3 ex_w ex_lens (fun _ => 1#2)%Q (fun _ => 1#10)%Q ex_special (ex_u (1#2)) (ex_u (1#3))
      (new_train_plan 100 (-1) (-1)) ex_zs = Ok (s', c') /\
  topic_dists c' = Some p /\ word_dists c' = Some q /\
  (forall d, d < 2 -> distribution 2 (p d)) /\ (forall k, distribution 3 (q k)).
Proof.
  destruct (ex_runs 100 ltac:(lia)) as (s' & c' & E).
  pose proof (proj2 (C86_default_plan_has_samples_iff 2 3 _ _ _ _ _ _ _ 100%Z _ _ _ ltac:(lia) E) ltac:(lia)) as Hp.
  destruct (topic_dists c') as [p|] eqn:Ep; [|contradiction].
  assert (exists q, word_dists c' = Some q) as (q & Eq).
  { unfold topic_dists, word_dists, averaged in *. destruct (taken c' =? 0); [discriminate|]. eexists. reflexivity. }
  exists s', c', p, q. split; [exact E|]. split; [exact Ep|]. split; [exact Eq|].
  eapply (C86_training_distributions 2 3 ex_w ex_lens); try exact E; try exact Ep; try exact Eq; try lia; try (intros; reflexivity).
  - intros n _. apply Nat.mod_upper_bound. lia.
  - intros n _. apply Nat.mod_upper_bound. lia.
Qed.
(** A model with as many samples as the query keeps its word distributions. *)
Example C43_case :
  match query 2 2 (fun n => n) [2] (fun _ => 1#2)%Q ex_special (ex_u (1#2)) (ex_u (1#2)) (new_train_plan 2 0 1) ex_model ex_zs with
  | Ok (_, c) => taken c = taken ex_model
  | Raise _ => False
  end.
Proof. vm_compute. reflexivity. Qed.

Print Assumptions C41_initial_counts_match.
Print Assumptions C41_counts_match_at_every_point.
Print Assumptions C41_counts_match.
Print Assumptions C41_query_counts_match.
Print Assumptions C41_training_counts_match.
Print Assumptions C42_samples_recorded.
Print Assumptions C42_burn_in_records_nothing.
Print Assumptions C42_training_samples.
Print Assumptions C83_training_runs.
Print Assumptions C83_query_runs.
Print Assumptions C83_every_draw_selects_refuted.
Print Assumptions C84_drawn_by_conditional.
Print Assumptions C85_every_token_once.
Print Assumptions C86_training_distributions.
Print Assumptions C86_query_distributions.
Print Assumptions C86_default_plan_has_samples_iff.
Print Assumptions C86_short_runs_refuted.
Print Assumptions C43_query_keeps_sums.
Print Assumptions C43_word_dists_scaled.
Print Assumptions C43_word_dists_unchanged_same_samples.
Print Assumptions C43_word_dists_unchanged_refuted.
Print Assumptions C44_logging_fails.
Print Assumptions C44_default_plan_never_runs.
Print Assumptions C44_default_plan_runnable_refuted.
Print Assumptions C44_quiet_plan_runs_iff.
Print Assumptions C44_quiet_plan_error.
Print Assumptions C44_quiet_sample_counts.
Print Assumptions C88_returns_last_state.
Print Assumptions C88_average_returned_refuted.
Print Assumptions C87_memberships.
