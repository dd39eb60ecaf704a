(** * C210-C212: options, models and evaluations of the command line *)
From Coq Require Import List ZArith QArith Arith Bool String Lia.
From Verif Require Import Base CliModel.
Import ListNotations.
Open Scope nat_scope.
Local Open Scope string_scope.

(** ** Specification *)
(** Python's rule for one parameter, the [i]th: the positional argument at its place, else
    the argument with its name, else its default. *)
Definition python_value (ps : params) (pos : list value) (kw : list (string * value)) (i : nat) : option value :=
  match nth_error pos i with
  | Some v => Some v
  | None => match nth_error ps i with
            | Some (n, d) => match lookup n kw with Some v => Some v | None => d end
            | None => None
            end
  end.
(** What the parameters of newModelAtRandom stand for, by the help texts and docstrings. *)
Definition meant (o : options) : list (string * value) :=
  [("K", v_int (o_K o)); ("P", v_int (o_P o)); ("Q", v_int (o_Q o));
   ("featVar", VReal (o_feat_var o)); ("fv", VReal (o_feat_var o));
   ("latFeatVar", VReal (o_lat_feat_var o)); ("lfv", VReal (o_lat_feat_var o));
   ("tv", VReal (o_topic_var o)); ("ltv", VReal (o_lat_topic_var o)); ("dtype", VObj (o_dtype o))].
(** Every parameter that there is gets what is meant for it. *)
Definition honours (ask got : list (string * value)) : Prop :=
  forall n v, lookup n ask = Some v -> In n (names got) -> lookup n got = Some v.
(** The names that are accepted, documented or not. *)
Definition accepted : list string := (model_names ++ ["mtm2_vb"; "sim_lda_vb"; "sim_tfidf"])%list.
Definition with_model (o : options) (m : string) : options :=
  mkOptions m (o_K o) (o_Q o) (o_P o) (o_log_freq o) (o_iters o) (o_query_iters o) (o_min_vb_change o)
    (o_topic_var o) (o_feat_var o) (o_lat_topic_var o) (o_lat_feat_var o) (o_vocab_prior o) (o_debug o) (o_batch o) (o_rate_delay o) (o_forgetting o) (o_dtype o).
Definition with_logging (o : options) (f : Z) (e : Q) : options :=
  mkOptions (o_model o) (o_K o) (o_Q o) (o_P o) f (o_iters o) (o_query_iters o) e
    (o_topic_var o) (o_feat_var o) (o_lat_topic_var o) (o_lat_feat_var o) (o_vocab_prior o) (o_debug o) (o_batch o) (o_rate_delay o) (o_forgetting o) (o_dtype o).
Definition with_vocab_prior (o : options) (q : Q) : options :=
  mkOptions (o_model o) (o_K o) (o_Q o) (o_P o) (o_log_freq o) (o_iters o) (o_query_iters o) (o_min_vb_change o)
    (o_topic_var o) (o_feat_var o) (o_lat_topic_var o) (o_lat_feat_var o) q (o_debug o) (o_batch o) (o_rate_delay o) (o_forgetting o) (o_dtype o).
Definition with_gradient (o : options) (b : Z) (d f : Q) : options :=
  mkOptions (o_model o) (o_K o) (o_Q o) (o_P o) (o_log_freq o) (o_iters o) (o_query_iters o) (o_min_vb_change o)
    (o_topic_var o) (o_feat_var o) (o_lat_topic_var o) (o_lat_feat_var o) (o_vocab_prior o) (o_debug o) b d f (o_dtype o).

(** ** The model of calls is Python's *)
Lemma bind_rest_value ps kw b : bind_rest ps kw = Ok b -> List.length b = List.length ps /\ forall i, nth_error (map snd b) i = python_value ps [] kw i.
Proof.
  revert b. induction ps as [|(n, d) ps IH]; intros b H.
  - injection H as <-. split; [reflexivity|]. intros [|i]; reflexivity.
  - cbn [bind_rest] in H. destruct (match lookup n kw with Some v => Some v | None => d end) as [v|] eqn:E; [|discriminate].
    destruct (bind_rest ps kw) as [r|] eqn:R; [|discriminate]. injection H as <-. destruct (IH r eq_refl) as (L & V).
    split; [cbn [List.length]; rewrite L; reflexivity|]. intros [|i].
    + unfold python_value. cbn [nth_error map snd]. rewrite E. reflexivity.
    + cbn [nth_error map snd]. rewrite V. unfold python_value. destruct i; reflexivity.
Qed.
Lemma bind_args_value ps pos kw b : bind_args ps pos kw = Ok b -> names b = names ps /\ forall i, nth_error (map snd b) i = python_value ps pos kw i.
Proof.
  revert ps b. induction pos as [|v pos IH]; intros ps b H.
  - assert (H' : bind_rest ps kw = Ok b) by (destruct ps; cbn [bind_args] in H; destruct (forallb _ _); congruence).
    split; [|apply (bind_rest_value ps kw b H')]. clear H. revert b H'. induction ps as [|(n, d) ps IH]; intros b H; [injection H as <-; reflexivity|].
    cbn [bind_rest] in H. destruct (match lookup n kw with Some v => Some v | None => d end); [|discriminate].
    destruct (bind_rest ps kw) as [r|] eqn:R; [|discriminate]. injection H as <-. cbn [names map fst]. f_equal. apply IH. reflexivity.
  - destruct ps as [|(n, d) ps]; [discriminate|]. cbn [bind_args] in H. destruct (bind_args ps pos kw) as [r|] eqn:R; [|discriminate].
    injection H as <-. destruct (IH ps r R) as (N & V). split; [cbn [names map fst]; f_equal; exact N|].
    intros [|i]; [reflexivity|]. cbn [nth_error map snd]. rewrite V. reflexivity.
Qed.

(** ** Cases *)
Ltac options_cases o :=
  let m := fresh "m" in
  destruct o as [m K Q P lf it qi mv tv fv ltv lfv vp dbg bat rd fg dt];
  cbn [o_model] in *.
Lemma accepted_cases (Pr : string -> Prop) : Forall Pr accepted -> forall m, In m accepted -> Pr m.
Proof. intros F m H. rewrite Forall_forall in F. apply F, H. Qed.
Lemma lookup_none {A} m (l : list (string * A)) : lookup m l = None <-> ~ In m (names l).
Proof.
  unfold lookup. split.
  - intros H. destruct (find _ l) eqn:E; [discriminate|]. intros I. apply in_map_iff in I. destruct I as (p & <- & I).
    pose proof (find_none _ _ E p I) as F. cbv beta in F. rewrite String.eqb_refl in F. discriminate.
  - intros H. destruct (find _ l) as [p|] eqn:E; [|reflexivity]. destruct H. apply find_some in E. destruct E as (I & E).
    apply String.eqb_eq in E. subst m. apply in_map, I.
Qed.
Lemma dispatch_accepted o : (exists r, dispatch o = Ok r) <-> In (o_model o) accepted.
Proof.
  unfold dispatch. cbv zeta. match goal with |- context [lookup _ ?l] => set (tab := l) end.
  assert (N : forall m, In m (names tab) <-> In m accepted) by (intros m; unfold tab, accepted, model_names; cbn [names map fst app In]; tauto).
  rewrite <- N. destruct (lookup (o_model o) tab) as [r|] eqn:E.
  - split; [|intros _; eexists; reflexivity]. intros _. destruct (In_dec string_dec (o_model o) (names tab)) as [I|I]; [exact I|].
    apply lookup_none in I. congruence.
  - split; [intros (r & C); discriminate|]. intros I. apply lookup_none in E. contradiction.
Qed.
Lemma configure_accepted o s : configure o = Ok s -> In (o_model o) accepted.
Proof. intros H. apply dispatch_accepted. unfold configure in H. destruct (dispatch o) as [r|]; [eexists; reflexivity|discriminate]. Qed.
(** Twenty models. *)
Ltac by_model o s H :=
  let I := fresh in
  pose proof (configure_accepted o s H) as I; options_cases o;
  unfold accepted, model_names in I; cbn [app In] in I;
  repeat (destruct I as [I|I]; [subst|]); [..|destruct I].
Ltac by_batch H :=
  unfold configure, train_plan_args in H; cbn [o_batch] in H;
  match type of H with context [(0 <? ?b)%Z] => destruct (0 <? b)%Z end;
  vm_compute in H; injection H as <-.

(** ** C210 *)
(** Numbers of topics, of latent topics and of latent features, variances and the type of
    numbers reach the parameters they are for, where a model has them; every model gets
    the number of topics. *)
Theorem C210_model_options o s : configure o = Ok s ->
  honours (meant o) (s_template s) /\ lookup "K" (s_template s) = Some (v_int (o_K o)).
Proof.
  intros H. split.
  - intros n v. by_model o s H; by_batch H; intros L I;
      unfold meant, lookup in L; cbn [find fst snd o_K o_P o_Q o_feat_var o_lat_feat_var o_topic_var o_lat_topic_var o_dtype] in L;
      cbn [s_template names map fst In] in I; repeat (destruct I as [I|I]; [subst n|]); try (destruct I; fail);
      cbn in L; try discriminate L; injection L as <-; reflexivity.
  - by_model o s H; by_batch H; reflexivity.
Qed.
(** Training is planned with the iterations for training, queries with those for queries,
    and both with debugging exactly if --debug has a value that is not empty. *)
Theorem C210_plan_options o s : configure o = Ok s ->
  lookup "iterations" (s_train s) = Some (VInt (o_iters o)) /\ lookup "iterations" (s_query s) = Some (VInt (o_query_iters o)) /\
  lookup "debug" (s_train s) = Some (VBool (debug_of o)) /\ lookup "debug" (s_query s) = Some (VBool (debug_of o)).
Proof. intros H. by_model o s H; by_batch H; repeat split. Qed.
(** The plan with which a module is called for training or a query. *)
Definition plan_of (f : string) (d : demand) : option value :=
  match d with Calls g a => if String.eqb g f then nth_error (fst a) 3 else None | _ => None end.
(** Every evaluation trains with the training plan; the evaluation of perplexity queries
    with the plan for queries, and so for --query-iters iterations. *)
Theorem C210_plans_used e name d v : In d (demands e name) ->
  (plan_of "train" d = Some v -> v = VObj "train_plan") /\
  (e = Perplexity -> plan_of "query" d = Some v -> v = VObj "query_plan").
Proof.
  intros I. split.
  - intros E. destruct e; cbn [demands tag_demands trains queries app In copies] in I;
      unfold copies in I; try (destruct (model_uses_lda name)); try (destruct (String.eqb name "lro/vb"));
      cbn [app In] in I; repeat (destruct I as [I|I]; [subst d; vm_compute in E; congruence|]); destruct I.
  - intros -> E. cbn [demands tag_demands trains queries app In] in I.
    repeat (destruct I as [I|I]; [subst d; vm_compute in E; congruence|]); destruct I.
Qed.
(** Refuted: the evaluations of tags and of unseen documents query with the training plan. *)
Theorem C210_query_iterations_refuted : exists e name d, In d (demands e name) /\ plan_of "query" d = Some (VObj "train_plan").
Proof.
  exists TagPrecAtM, "ctm/bohning", (Calls "query" (objs ["query_data"; "model"; "query_tops"; "train_plan"])).
  split; [|reflexivity]. cbn. tauto.
Qed.
(** --vocab-prior is the prior over words of the correlated and side-topic models. *)
Definition with_word_prior : list string :=
  ["ctm_bouchard"; "ctm_bohning"; "stm_yv_bouchard"; "stm_yv_bohning"; "stm_yv_bohning_fake_online"; "stm_uyv_bohning"].
Theorem C210_vocab_prior o s : In (o_model o) with_word_prior -> configure o = Ok s ->
  lookup "vocabPrior" (s_template s) = Some (VReal (o_vocab_prior o)).
Proof.
  intros I H. options_cases o. cbn [with_word_prior In] in I.
  repeat (destruct I as [I|I]; [subst; by_batch H; reflexivity|]). destruct I.
Qed.
(** Other models have a prior over words that the option does not change. *)
Theorem C210_vocab_prior_elsewhere o s q s' : ~ In (o_model o) with_word_prior -> configure o = Ok s -> configure (with_vocab_prior o q) = Ok s' ->
  lookup "vocabPrior" (s_template s) = lookup "vocabPrior" (s_template s').
Proof.
  intros N H H'. by_model o s H; try (exfalso; apply N; cbn; tauto); clear N; by_batch H; by_batch H'; reflexivity.
Qed.
(** Refuted: for lda_vb and lda_svb it is the prior over topics instead. *)
Theorem C210_vocab_prior_refuted : exists o s, configure o = Ok s /\
  In "vocabPrior" (names (s_template s)) /\ lookup "vocabPrior" (s_template s) <> Some (VReal (o_vocab_prior o)) /\
  lookup "topicPrior" (s_template s) = Some (VReal (o_vocab_prior o)).
Proof.
  exists (mkOptions "lda_vb" (Some 10%Z) None None 10 500 100 1 1 1 1 1 (1#2) None 0 1 1 "f4"). eexists. split; [reflexivity|].
  split; [cbn; tauto|]. split; [discriminate|reflexivity].
Qed.
(** --log-freq and --min-vb-change change nothing. *)
Theorem C210_logging_options_unused o f e : configure (with_logging o f e) = configure o.
Proof. destruct o. reflexivity. Qed.
Theorem C210_logging_refuted : exists o s, configure o = Ok s /\
  In "logFrequency" (names (s_train s)) /\ lookup "logFrequency" (s_train s) <> Some (VInt (o_log_freq o)) /\
  In "epsilon" (names (s_train s)) /\ lookup "epsilon" (s_train s) <> Some (VReal (o_min_vb_change o)).
Proof.
  exists (mkOptions "ctm_bohning" (Some 10%Z) None None 50 500 100 1 1 1 1 1 (1#2) None 0 1 1 "f4"). eexists. split; [reflexivity|].
  split; [cbn; tauto|]. split; [discriminate|]. split; [cbn; tauto|discriminate].
Qed.
(** Refuted: --debug False switches debugging on. *)
Theorem C210_debug_false_refuted : exists o s, o_debug o = Some "False" /\ configure o = Ok s /\ lookup "debug" (s_train s) = Some (VBool true).
Proof.
  exists (mkOptions "ctm_bohning" (Some 10%Z) None None 10 500 100 1 1 1 1 1 (1#2) (Some "False") 0 1 1 "f4"). eexists.
  split; [reflexivity|]. split; reflexivity.
Qed.

(** ** C211 *)
(** Every model that the help text names is configured, whatever the options; names that
    are not known raise ValueError. *)
Theorem C211_named_models_configured o : In (o_model o) model_names -> exists s, configure o = Ok s.
Proof.
  intros I. options_cases o. unfold model_names in I; cbn [app In] in I.
  repeat (destruct I as [I|I]; [subst; unfold configure, train_plan_args; cbn [o_batch]; destruct (0 <? bat)%Z; eexists; vm_compute; reflexivity|]). destruct I.
Qed.
Theorem C211_unknown_names_rejected o : ~ In (o_model o) accepted -> configure o = Raise ValueError.
Proof.
  intros N. unfold configure. destruct (dispatch o) as [r|e] eqn:E.
  - destruct N. apply dispatch_accepted. eauto.
  - unfold dispatch in E. destruct (lookup _ _); [discriminate|]. injection E as <-. reflexivity.
Qed.
(** Refuted: three names are accepted that the help text does not have. *)
Theorem C211_names_documented_refuted : exists o s, configure o = Ok s /\ ~ In (o_model o) model_names.
Proof.
  exists (mkOptions "mtm2_vb" (Some 10%Z) None None 10 500 100 1 1 1 1 1 (1#2) None 0 1 1 "f4"). eexists. split; [reflexivity|].
  cbn. intros C. repeat (destruct C as [C|C]; [discriminate|]). exact C.
Qed.
(** Stochastic training: with a positive batch size, its options reach the plan. *)
Theorem C211_gradient_options o s : o_model o = "lda_svb" -> (0 < o_batch o)%Z -> configure o = Ok s ->
  lookup "batchSize" (s_train s) = Some (VInt (o_batch o)) /\ lookup "rate_delay" (s_train s) = Some (VReal (o_rate_delay o)) /\
  lookup "forgetting_rate" (s_train s) = Some (VReal (o_forgetting o)).
Proof.
  intros E B H. options_cases o. subst. cbn [o_batch] in B. apply Z.ltb_lt in B.
  unfold configure, train_plan_args in H; cbn [o_batch] in H. rewrite B in H. vm_compute in H. injection H as <-. repeat split.
Qed.
(** They change nothing for any other model. *)
Theorem C211_gradient_options_elsewhere o b d f : o_model o <> "lda_svb" -> configure (with_gradient o b d f) = configure o.
Proof.
  intros N. unfold configure, train_plan_args, supports_sgd. destruct o as [m K Q P lf it qi mv tv fv ltv lfv vp dbg bat rd fg dt].
  cbn [o_model o_batch with_gradient] in *. apply String.eqb_neq in N. rewrite N, !andb_false_r. reflexivity.
Qed.
(** Without a batch size, lda_svb is lda_vb. *)
Theorem C211_svb_needs_batch_size o : (o_batch o <= 0)%Z -> configure (with_model o "lda_svb") = configure (with_model o "lda_vb").
Proof.
  intros B. unfold configure, train_plan_args. cbn [o_batch with_model]. replace (0 <? o_batch o)%Z with false by lia. reflexivity.
Qed.
(** Refuted: that the name lda_svb by itself selects stochastic training. *)
Theorem C211_svb_refuted : exists o, configure (with_model o "lda_svb") = configure (with_model o "lda_vb") /\ exists s, configure (with_model o "lda_svb") = Ok s.
Proof.
  exists (mkOptions "lda_svb" (Some 10%Z) None None 10 500 100 1 1 1 1 1 (1#2) None 0 1 1 "f4"). split; [reflexivity|]. eexists. reflexivity.
Qed.

(** ** C212 *)
(** The models with which a fold of each evaluation gets past the calls it makes. *)
Definition evaluates (e : evaluation) : list string :=
  match e with
  | Perplexity => ["ctm_bouchard"; "ctm_bohning"; "stm_yv_bouchard"; "stm_yv_bohning"; "stm_yv_bohning_fake_online"; "stm_uyv_bohning";
                   "lda_cvb"; "lda_vb"; "lda_svb"; "lda_gibbs"; "rtm_vb"; "mtm_vb"; "lro_vb"; "dmr"; "mtm2_vb"; "sim_lda_vb"; "sim_tfidf"]
  | HashtagPrecAtM | TagPrecAtM => ["ctm_bohning"; "stm_yv_bohning"; "stm_uyv_bohning"; "mtm_vb"]
  | MeanAveragePrecAllDocs | MeanPrecRecAtMAllDocs => ["rtm_vb"; "mtm_vb"]
  | LroMeanPrecRecAtMAllDocs | LroMeanPrecRecAtMFeatSplit => ["lro_vb"; "mtm2_vb"; "sim_lda_vb"; "sim_tfidf"]
  end.
Theorem C212_accepted_iff o s e : configure o = Ok s -> (evaluate s e = Ok tt <-> In (o_model o) (evaluates e)).
Proof.
  intros H. by_model o s H; by_batch H; destruct e; vm_compute; split; intros C; try discriminate C; try tauto; try reflexivity;
    exfalso; repeat (destruct C as [C|C]; [discriminate C|]); exact C.
Qed.
(** A model that is not accepted fails with TypeError or AttributeError. *)
Theorem C212_otherwise o s e : configure o = Ok s -> ~ In (o_model o) (evaluates e) ->
  evaluate s e = Raise TypeError \/ evaluate s e = Raise AttributeError.
Proof.
  intros H N. by_model o s H; by_batch H; destruct e; vm_compute in N |- *; try (exfalso; apply N; tauto); auto.
Qed.
(** Refuted: named models cannot be evaluated by perplexity, and link models not by the
    evaluations of links. *)
Theorem C212_perplexity_refuted : exists o s, In (o_model o) model_names /\ configure o = Ok s /\ evaluate s Perplexity = Raise TypeError.
Proof.
  exists (mkOptions "mom_em" (Some 10%Z) None None 10 500 100 1 1 1 1 1 (1#2) None 0 1 1 "f4"). eexists.
  split; [cbn; tauto|]. split; [reflexivity|]. reflexivity.
Qed.
Theorem C212_cvb0_refuted : exists o s, In (o_model o) model_names /\ configure o = Ok s /\ forall e, evaluate s e = Raise AttributeError.
Proof.
  exists (mkOptions "lda_cvb0" (Some 10%Z) None None 10 500 100 1 1 1 1 1 (1#2) None 0 1 1 "f4"). eexists.
  split; [cbn; tauto|]. split; [reflexivity|]. intros []; reflexivity.
Qed.
Theorem C212_links_refuted : exists o s, In (o_model o) model_names /\ configure o = Ok s /\
  evaluate s LroMeanPrecRecAtMAllDocs = Ok tt /\ evaluate s MeanAveragePrecAllDocs = Raise TypeError.
Proof.
  exists (mkOptions "lro_vb" (Some 10%Z) None None 10 500 100 1 1 1 1 1 (1#2) None 0 1 1 "f4"). eexists.
  split; [cbn; tauto|]. split; [reflexivity|]. split; reflexivity.
Qed.

(** ** Examples *)
Example C210_case :
  let o := mkOptions "stm_yv_bohning" (Some 10%Z) None (Some 5%Z) 10 500 100 1 1 (1#3) 1 (1#4) (1#2) None 0 1 1 "f4" in
  exists s, configure o = Ok s /\ map snd (s_template s) = [VObj "data"; VInt 5; VInt 10; VReal (1#3); VReal (1#4); VReal (1#2); VObj "f4"].
Proof. eexists. split; reflexivity. Qed.
Example C211_case :
  let o := mkOptions "lda_svb" (Some 10%Z) None None 10 500 100 1 1 1 1 1 (1#2) None 64 (1#5) (3#5) "f4" in
  exists s, configure o = Ok s /\ lookup "batchSize" (s_train s) = Some (VInt 64) /\ lookup "batchSize" (s_query s) = Some (VInt 0).
Proof. eexists. split; [reflexivity|]. split; reflexivity. Qed.
Example C212_case :
  let o := mkOptions "rtm_vb" (Some 10%Z) None None 10 500 100 1 1 1 1 1 (1#2) None 0 1 1 "f4" in
  exists s, configure o = Ok s /\ map (evaluate s) [Perplexity; TagPrecAtM; MeanAveragePrecAllDocs; LroMeanPrecRecAtMAllDocs]
    = [Ok tt; Raise AttributeError; Ok tt; Raise TypeError].
Proof. eexists. split; reflexivity. Qed.

Print Assumptions C210_model_options.
Print Assumptions C210_plan_options.
Print Assumptions C210_plans_used.
Print Assumptions C210_query_iterations_refuted.
Print Assumptions C210_vocab_prior.
Print Assumptions C210_vocab_prior_elsewhere.
Print Assumptions C210_vocab_prior_refuted.
Print Assumptions C210_logging_options_unused.
Print Assumptions C210_logging_refuted.
Print Assumptions C210_debug_false_refuted.
Print Assumptions C211_named_models_configured.
Print Assumptions C211_unknown_names_rejected.
Print Assumptions C211_names_documented_refuted.
Print Assumptions C211_gradient_options.
Print Assumptions C211_gradient_options_elsewhere.
Print Assumptions C211_svb_needs_batch_size.
Print Assumptions C211_svb_refuted.
Print Assumptions C212_accepted_iff.
Print Assumptions C212_otherwise.
Print Assumptions C212_perplexity_refuted.
Print Assumptions C212_cvb0_refuted.
Print Assumptions C212_links_refuted.
