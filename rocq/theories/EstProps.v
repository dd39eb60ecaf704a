(** * C230-C237: the settings of the scikit-learn wrapper and its eight kinds of model *)
From Coq Require Import List ZArith QArith Arith Bool String Lia.
From Verif Require Import Base SkModel EstModel.
Import ListNotations.
Local Open Scope nat_scope.

(** ** C230: copies of an estimator *)
Lemma lookup_name k : lookup (KName (kind_name k)) = Ok k.
Proof. destruct k; reflexivity. Qed.
Lemma kindv_eqb_refl v : kindv_eqb v v = true.
Proof. destruct v; apply String.eqb_refl. Qed.
Lemma zopt_eqb_true a b : zopt_eqb a b = true <-> a = b.
Proof. destruct a as [x|], b as [y|]; cbn [zopt_eqb]; split; intros H; try discriminate H; try reflexivity; [f_equal; lia|injection H as ->; lia]. Qed.
Lemma qopt_eqb_true a b : qopt_eqb a b = true <-> a = b.
Proof.
  destruct a as [[x p]|], b as [[y q]|]; cbn [qopt_eqb Qnum Qden]; split; intros H; try discriminate H; try reflexivity.
  - apply andb_prop in H. destruct H as [H1 H2]. apply Z.eqb_eq in H1. apply Pos.eqb_eq in H2. subst. reflexivity.
  - injection H as -> ->. rewrite Z.eqb_refl, Pos.eqb_refl. reflexivity.
Qed.

(** A clone has the settings of the original exactly when the kind is a name of a kind,
    and transform iterations and tolerance are numbers, not zero unless the default is. *)
Definition clonable (s : settings) : Prop :=
  (exists k, s_kind s = KName (kind_name k)) /\
  (exists q, s_query_iterations s = Some q /\ (q <> 0 \/ s_iterations s / 10 = 0)%Z) /\
  exists t, s_perp_tolerance s = Some t /\ ~ (t == 0)%Q.
Lemma lookup_ok v k : lookup v = Ok k -> v = KName (kind_name k).
Proof.
  destruct v as [s|j]; cbn [lookup]; [|discriminate].
  destruct (find _ _) as [k'|] eqn:F; [|discriminate]. intros E. injection E as <-.
  apply find_some in F. destruct F as [_ F]. apply String.eqb_eq in F. subst s. reflexivity.
Qed.
Theorem C230_clone_iff s : clone s = Ok s <-> clonable s.
Proof.
  unfold clone, build, construct. split.
  - destruct (lookup (match s_kind s with KName x => KName x | KType k => KName (kind_name k) end)) as [k|e] eqn:L; [|discriminate].
    cbn [bind s_kind s_query_iterations s_perp_tolerance].
    destruct (_ && _ && _) eqn:B; [|discriminate]. intros _.
    apply andb_prop in B. destruct B as [B B3]. apply andb_prop in B. destruct B as [B1 B2].
    apply zopt_eqb_true in B2. apply qopt_eqb_true in B3. split; [|split].
    + destruct (s_kind s) as [x|j]; [|discriminate B1]. exists k. apply lookup_ok, L.
    + exists (or_z (s_query_iterations s) (s_iterations s / 10)). split; [symmetry; exact B2|].
      unfold or_z in *. destruct (s_query_iterations s) as [v|]; [|discriminate B2]. destruct (Z.eqb_spec v 0); lia.
    + exists (or_q (s_perp_tolerance s) (1 # 10)). split; [symmetry; exact B3|].
      unfold or_q. destruct (s_perp_tolerance s) as [v|]; [|discriminate].
      destruct (Qeq_bool v 0) eqn:E; [discriminate|]. intros C. apply Qeq_bool_iff in C. congruence.
  - intros ([k K] & (q & Hq & Q0) & (t & Ht & T0)). rewrite K, lookup_name. cbn [bind s_kind s_query_iterations s_perp_tolerance].
    rewrite Hq, Ht. assert (Eq : or_z (Some q) (s_iterations s / 10) = q) by (cbn [or_z]; destruct (Z.eqb_spec q 0); lia).
    assert (Et : or_q (Some t) (1 # 10) = t).
    { cbn [or_q]. destruct (Qeq_bool t 0) eqn:E; [|reflexivity]. apply Qeq_bool_iff in E. contradiction. }
    rewrite Eq, Et, kindv_eqb_refl. destruct (zopt_eqb (Some q) (Some q)) eqn:E1; [|assert (zopt_eqb (Some q) (Some q) = true) by (apply zopt_eqb_true; reflexivity); congruence].
    destruct (qopt_eqb (Some t) (Some t)) eqn:E2; [|assert (qopt_eqb (Some t) (Some t) = true) by (apply qopt_eqb_true; reflexivity); congruence].
    cbn [andb]. destruct s as [sk si sq sp so ss]; cbn [s_kind s_iterations s_query_iterations s_perp_tolerance s_others s_seed] in *. congruence.
Qed.
(** Whatever the arguments, an estimator as constructed has a clone with its settings. *)
Theorem C230_clone a s : build a = Ok s -> clone s = Ok s.
Proof.
  intros B. apply C230_clone_iff. unfold build, construct in B.
  destruct (lookup _) as [k|] eqn:L in B; [|discriminate]. cbn [bind] in B. injection B as <-.
  unfold clonable. cbn [s_kind s_iterations s_query_iterations s_perp_tolerance]. split; [|split].
  - exists k. apply lookup_ok, L.
  - eexists. split; [reflexivity|]. unfold or_z. destruct (s_query_iterations a) as [v|]; [|lia]. destruct (Z.eqb_spec v 0); lia.
  - eexists. split; [reflexivity|]. unfold or_q. destruct (s_perp_tolerance a) as [v|]; [|discriminate].
    destruct (Qeq_bool v 0) eqn:E; [discriminate|]. intros C. apply Qeq_bool_iff in C. congruence.
Qed.
(** A clone that is not refused has the settings of the original. *)
Theorem C230_clones_agree s c : clone s = Ok c -> c = s.
Proof.
  intros H. assert (H' := H). unfold clone, build, construct in H.
  destruct (lookup _) as [k|e] eqn:L in H; [|discriminate].
  cbn [bind s_kind s_query_iterations s_perp_tolerance] in H.
  destruct (_ && _ && _) eqn:B in H; [|discriminate]. injection H as <-.
  apply andb_prop in B. destruct B as [B B3]. apply andb_prop in B. destruct B as [B1 B2].
  apply zopt_eqb_true in B2. apply qopt_eqb_true in B3. rewrite B2, B3.
  destruct s as [sk si sq sp so ss]; cbn [s_kind s_iterations s_query_iterations s_perp_tolerance s_others s_seed] in *.
  destruct sk; [reflexivity|discriminate B1].
Qed.
Definition plain_others : others := mkOthers 0 false false 0 (3 # 5) (3 # 5) 2 (1 # 2) 0 (-1) (-1) 10 0.
Definition plain (k : kind) : settings := mkSettings (KName (kind_name k)) 1000 None None plain_others coffee.
(** Settings that can be set but not cloned. *)
Theorem C230_clone_of_set_refuted k : exists s l s',
  build (plain k) = Ok s /\ set_params s l = Ok s' /\ s_perp_tolerance s' = Some 0%Q /\ exists e, clone s' = Raise e.
Proof.
  unfold build, construct. cbn [plain s_kind]. rewrite lookup_name. cbn [bind].
  eexists. exists [SetPerpTolerance (Some 0%Q)]. eexists. split; [reflexivity|]. split; [reflexivity|]. split; [reflexivity|].
  exists OtherError. destruct k; reflexivity.
Qed.
(** Setting the iterations of an estimator, as a grid search does, is not the same as
    constructing one with them: transform keeps the number of iterations that it had. *)
Theorem C230_set_iterations s n s' : set_params s [SetIterations n] = Ok s' ->
  s_iterations s' = n /\ s_query_iterations s' = s_query_iterations s.
Proof. cbn [set_params set_param bind]. intros E. injection E as <-. split; reflexivity. Qed.
(** An assignment changes one setting. *)
Theorem C230_set_others s a s' : set_param s a = Ok s' ->
  (s_kind s' = match a with SetKind v => v | _ => s_kind s end) /\
  (s_iterations s' = match a with SetIterations n => n | _ => s_iterations s end) /\
  (s_query_iterations s' = match a with SetQueryIterations n => n | _ => s_query_iterations s end) /\
  (s_perp_tolerance s' = match a with SetPerpTolerance q => q | _ => s_perp_tolerance s end) /\
  (s_others s' = match a with SetOthers o => o | _ => s_others s end) /\
  (s_seed s' = match a with SetSeed z => z | _ => s_seed s end).
Proof.
  destruct a; cbn [set_param]; try (intros E; injection E as <-; repeat split; reflexivity).
  destruct (lookup (s_kind s)) as [k|e]; cbn [bind]; [|discriminate]. intros E. injection E as <-. repeat split; reflexivity.
Qed.
(** The seed is looked up with the kind, the other assignments are always accepted. *)
Theorem C230_set_accepted s a : (exists s', set_param s a = Ok s') \/ (exists z e, a = SetSeed z /\ lookup (s_kind s) = Raise e /\ set_param s a = Raise e).
Proof.
  destruct a as [v|n|n|q|o|z]; try (left; eexists; reflexivity). cbn [set_param].
  destruct (lookup (s_kind s)) as [k|e] eqn:L; cbn [bind]; [left; eexists; reflexivity|right; exists z, e; auto].
Qed.
Theorem C230_set_is_construct_refuted k : exists s s' c,
  build (plain k) = Ok s /\ set_params s [SetIterations 50] = Ok s' /\
  build (mkSettings (KName (kind_name k)) 50 None None plain_others coffee) = Ok c /\
  s_query_iterations s' = Some 100%Z /\ s_query_iterations c = Some 5%Z.
Proof.
  unfold build, construct. cbn [plain s_kind]. rewrite lookup_name. cbn [bind].
  eexists. eexists. eexists. split; [reflexivity|]. split; [reflexivity|]. split; [reflexivity|]. split; reflexivity.
Qed.
(** The method [copy] never returns. *)
Theorem C230_copy_refuted {M Qs} (copy_cvb0 : M -> res M) defaults (e : @estimator M Qs) :
  copy_est copy_cvb0 defaults e = Raise TypeError.
Proof. reflexivity. Qed.

(** ** C231: seeds *)
Section Seeds.
  Context {G C D M : Type} (seed_np : Z -> G) (seed_c : Z -> C)
          (run : kind -> settings -> option M -> D -> G -> res M * G)
          (after : kind -> D -> C -> C)
          (run_gibbs : settings -> option M -> D -> G -> C -> res M * G * C).
  Notation history := (history seed_np seed_c run after run_gibbs).
  Definition with_seed (a : settings) (z : Z) : settings :=
    mkSettings (s_kind a) (s_iterations a) (s_query_iterations a) (s_perp_tolerance a) (s_others a) z.

  Lemma build_seed a z : build (with_seed a z) = (do s <- build a; Ok (with_seed s z)).
  Proof. unfold build, construct, with_seed. cbn [s_kind s_iterations s_query_iterations s_perp_tolerance s_others s_seed]. destruct (lookup _); reflexivity. Qed.
  Lemma build_kind a s : build a = Ok s -> exists k, s_kind s = KName (kind_name k) /\ lookup (s_kind s) = Ok k /\ s_seed s = s_seed a.
  Proof.
    unfold build, construct. destruct (lookup _) as [k|] eqn:L; [|discriminate]. intros E. injection E as <-.
    cbn [s_kind s_seed]. exists k. split; [apply lookup_ok, L|]. split; [exact L|reflexivity].
  Qed.
  Lemma unseeded_with s z : unseeded (with_seed s z) = unseeded s.
  Proof. reflexivity. Qed.

  Lemma history_build l i a s k w : build a = Ok s -> lookup (s_kind s) = Ok k ->
    history (Build i a :: l) w =
    history l (put i (s, None) (mkWorld (seed_np (match k with Gibbs => coffee | _ => s_seed a end))
                                        (match k with Gibbs => seed_c coffee | _ => libc w end) (live w))).
  Proof.
    intros B L. destruct (build_kind a s B) as (_ & _ & _ & Sd). cbn [EstModel.history happens]. rewrite B. cbn [bind].
    unfold seeded. rewrite L, Sd. destruct k; reflexivity.
  Qed.
  Lemma history_fit_any i d s k w m0 : live w i = Some (s, m0) -> lookup (s_kind s) = Ok k ->
    model_of i (history [Fit i d] w) =
    (do m <- (match k with
              | Gibbs => fst (fst (run_gibbs (unseeded s) m0 d (np w) (libc w)))
              | _ => fst (run k (unseeded s) m0 d (np w))
              end); Ok (Some m)).
  Proof.
    intros E L. cbn [EstModel.history happens]. rewrite E, L. cbn [bind].
    destruct k; try (destruct (run _ _ _ _ _) as [[m|e] g]; cbn [fst bind model_of live put]; [rewrite Nat.eqb_refl|]; reflexivity).
    destruct (run_gibbs _ _ _ _ _) as [[[m|e] g] c]; cbn [fst bind model_of live put]; [rewrite Nat.eqb_refl|]; reflexivity.
  Qed.
  Lemma history_fit i d s k w m0 : live w i = Some (s, m0) -> lookup (s_kind s) = Ok k -> k <> Gibbs ->
    model_of i (history [Fit i d] w) = (do m <- fst (run k (unseeded s) m0 d (np w)); Ok (Some m)).
  Proof.
    intros E L N. cbn [EstModel.history happens]. rewrite E, L. cbn [bind].
    destruct k; try congruence;
      (destruct (run _ _ _ _ _) as [[m|e] g]; cbn [fst bind model_of live put]; [rewrite Nat.eqb_refl|]; reflexivity).
  Qed.

  (** What a fit of a new estimator starts from. *)
  Theorem C231_start i a s k d w : build a = Ok s -> lookup (s_kind s) = Ok k ->
    model_of i (history [Build i a; Fit i d] w) =
    (do m <- (match k with
              | Gibbs => fst (fst (run_gibbs (unseeded s) None d (seed_np coffee) (seed_c coffee)))
              | _ => fst (run k (unseeded s) None d (seed_np (s_seed a)))
              end); Ok (Some m)).
  Proof.
    intros B L. destruct (build_kind a s B) as (k' & _ & L' & Sd). assert (k' = k) by congruence. subst k'.
    cbn [EstModel.history happens bind]. rewrite B. cbn [bind]. unfold seeded. rewrite L. cbn [bind].
    destruct k; cbn [bind live put]; rewrite Nat.eqb_refl; cbn [bind]; rewrite L; cbn [bind np libc put];
      try (rewrite Sd; destruct (run _ _ _ _ _) as [[m|e] g]; cbn [fst bind EstModel.history model_of live put]; [rewrite Nat.eqb_refl|]; reflexivity).
    destruct (run_gibbs _ _ _ _ _) as [[[m|e] g] c]; cbn [fst bind EstModel.history model_of live put]; [rewrite Nat.eqb_refl|]; reflexivity.
  Qed.
  (** A new estimator that is fitted at once gives the same model whatever went before. *)
  Theorem C231_reproducible i a d w w' :
    model_of i (history [Build i a; Fit i d] w) = model_of i (history [Build i a; Fit i d] w').
  Proof.
    destruct (build a) as [s|e] eqn:B; [|cbn [EstModel.history happens]; rewrite B; reflexivity].
    destruct (build_kind a s B) as (k & _ & L & _). rewrite !(C231_start i a s k d _ B L). reflexivity.
  Qed.
  (** Assigning the seed before the first fit is the same as constructing with it. *)
  Theorem C231_assigned i a z d w w' :
    model_of i (history [Build i a; Reseed i z; Fit i d] w) = model_of i (history [Build i (with_seed a z); Fit i d] w').
  Proof.
    destruct (build a) as [s|e] eqn:B; [|cbn [EstModel.history happens]; rewrite build_seed, B; reflexivity].
    destruct (build_kind a s B) as (k & _ & L & _).
    assert (B' : build (with_seed a z) = Ok (with_seed s z)) by (rewrite build_seed, B; reflexivity).
    rewrite (C231_start i _ _ k d w' B' L), (history_build _ i a s k w B L).
    cbn [EstModel.history happens live put]. rewrite Nat.eqb_refl.
    change (mkSettings (s_kind s) (s_iterations s) (s_query_iterations s) (s_perp_tolerance s) (s_others s) z) with (with_seed s z).
    unfold seeded. change (s_kind (with_seed s z)) with (s_kind s). rewrite L. cbn [bind].
    change (s_seed (with_seed s z)) with z. change (s_seed (with_seed a z)) with z.
    assert (F := fun w0 => history_fit_any i d (with_seed s z) k w0 None). cbn [EstModel.history happens] in F.
    destruct k; cbn [bind]; (rewrite F; [reflexivity|cbn [live put]; rewrite Nat.eqb_refl; reflexivity|exact L]).
  Qed.
  (** For LDA_GIBBS the seed makes no difference. *)
  Theorem C231_gibbs_ignores_seed i a s d z w w' : build a = Ok s -> lookup (s_kind s) = Ok Gibbs ->
    model_of i (history [Build i (with_seed a z); Fit i d] w) = model_of i (history [Build i a; Fit i d] w').
  Proof.
    intros B L. rewrite (C231_start i a s Gibbs d w' B L).
    assert (B' : build (with_seed a z) = Ok (with_seed s z)) by (rewrite build_seed, B; reflexivity).
    rewrite (C231_start i (with_seed a z) (with_seed s z) Gibbs d w B' L). rewrite unseeded_with. reflexivity.
  Qed.
  (** The seed of the estimator constructed last is the one that counts. *)
  Theorem C231_last_seed_counts i j a b s t k l d w w' : i <> j -> build a = Ok s -> build b = Ok t ->
    lookup (s_kind s) = Ok k -> lookup (s_kind t) = Ok l -> k <> Gibbs ->
    model_of i (history [Build i a; Build j b; Fit i d] w) =
    model_of i (history [Build i (with_seed a (match l with Gibbs => coffee | _ => s_seed b end)); Fit i d] w').
  Proof.
    intros N B B2 L L2 NG.
    assert (B' : build (with_seed a (match l with Gibbs => coffee | _ => s_seed b end)) = Ok (with_seed s (match l with Gibbs => coffee | _ => s_seed b end)))
      by (rewrite build_seed, B; reflexivity).
    rewrite (C231_start i _ _ k d w' B' L), unseeded_with.
    rewrite (history_build _ i a s k w B L), (history_build _ j b t l _ B2 L2).
    rewrite (history_fit i d s k _ None); [|cbn [put live]; destruct (Nat.eqb_spec i j); [contradiction|]; rewrite Nat.eqb_refl; reflexivity|exact L|exact NG].
    cbn [np put with_seed s_seed]. destruct k; try congruence; destruct l; reflexivity.
  Qed.
End Seeds.
(** So an estimator's own seed need not determine its model. *)
Theorem C231_own_seed_refuted : exists (run : kind -> settings -> option Z -> unit -> Z -> res Z * Z) a b w,
  s_seed a <> s_seed b /\
  let h := history (fun z => z) (fun z => z) run (fun _ _ (c : Z) => c) (fun _ _ _ g c => (Ok g, g, c)) in
  model_of 0 (h [Build 0 a; Fit 0 tt] w) = Ok (Some (s_seed a)) /\
  model_of 0 (h [Build 0 a; Build 1 b; Fit 0 tt] w) = Ok (Some (s_seed b)) /\
  model_of 0 (h [Build 0 a; Elsewhere (fun g => g + 1)%Z (fun c => c); Fit 0 tt] w) = Ok (Some (s_seed a + 1)%Z).
Proof.
  exists (fun _ _ _ _ g => (Ok g, g)), (plain CVB0), (mkSettings (KName "LDA_VB") 1000 None None plain_others 7),
    (mkWorld 0%Z 0%Z (fun _ => None)).
  split; [discriminate|]. cbv zeta. repeat split; reflexivity.
Qed.
(** Different seeds give the same model where every seed gives a different stream. *)
Theorem C231_gibbs_seed_refuted : exists (run_gibbs : settings -> option (Z * Z) -> unit -> Z -> Z -> res (Z * Z) * Z * Z) w,
  let h := history (fun z => z) (fun z => z) (fun _ _ _ _ g => (Raise OtherError, g)) (fun _ _ (c : Z) => c) run_gibbs in
  forall z, model_of 0 (h [Build 0 (with_seed (plain Gibbs) z); Fit 0 tt] w) = Ok (Some (coffee, coffee)).
Proof.
  exists (fun _ _ _ g c => (Ok (g, c), g, c)), (mkWorld 0%Z 0%Z (fun _ => None)). cbv zeta. intros z. reflexivity.
Qed.

(** ** C232: settings reach the training plan *)
Theorem C232_every_kind k s iters kb kt : let p := plan_of k s iters kb kt in
  p_iterations p = iters /\ p_log_frequency p = log_frequency (s_others s) /\
  p_fast p = use_approximations (s_others s) /\ p_debug p = debug (s_others s) /\
  (k <> Gibbs -> p_epsilon p = s_perp_tolerance s).
Proof. destruct k; cbn [plan_of p_iterations p_log_frequency p_fast p_debug p_epsilon]; repeat split; congruence. Qed.
Theorem C232_online s iters kb kt : let o := s_others s in
  p_batch (plan_of VBPython s iters kb kt) = Some (batchSize o, rate_delay o, forgetting_rate o, rate_a o, rate_b o, rate_algor o).
Proof. reflexivity. Qed.
(** Burn-in and thinning of LDA_GIBBS, from the settings or the arguments of the call. *)
Theorem C232_gibbs s iters kb kt b t :
  (match kb with Some v => v = b /\ b <> 0 | None => burn_in (s_others s) = b end)%Z ->
  (match kt with Some v => v = t /\ t <> 0 | None => thin (s_others s) = t end)%Z -> (0 <= b)%Z -> (0 <= t)%Z ->
  exists b' t', p_burn (plan_of Gibbs s iters kb kt) = Some (b', t') /\ gibbs_plan iters b' t' = ((iters + b)%Z, b, t).
Proof.
  intros Hb Ht Pb Pt. exists b, t. cbn [plan_of p_burn]. split.
  - f_equal. f_equal.
    + destruct kb as [v|]; cbn [or_z]; [destruct Hb as [-> ?]; destruct (Z.eqb_spec b 0); [contradiction|reflexivity]|exact Hb].
    + destruct kt as [v|]; cbn [or_z]; [destruct Ht as [-> ?]; destruct (Z.eqb_spec t 0); [contradiction|reflexivity]|exact Ht].
  - unfold gibbs_plan. destruct (Z.ltb_spec b 0); [lia|]. destruct (Z.ltb_spec t 0); [lia|]. reflexivity.
Qed.
(** A burn-in of zero asked of one call is not heard. *)
Theorem C232_zero_burn_in_refuted : exists s iters,
  p_burn (plan_of Gibbs s iters (Some 0%Z) None) = Some ((-1)%Z, (-1)%Z) /\ snd (fst (gibbs_plan iters (-1) (-1))) = 50%Z.
Proof. exists (plain Gibbs), 100%Z. split; reflexivity. Qed.
(** Batches do not reach LDA_SVB nor burn-in and thinning MOM_GIBBS, whose training plans
    have them; nothing of the settings for batches or sampling reaches another kind. *)
Theorem C232_ignored_refuted k s o iters kb kt kb' kt' : k <> VBPython -> k <> Gibbs ->
  log_frequency o = log_frequency (s_others s) -> use_approximations o = use_approximations (s_others s) -> debug o = debug (s_others s) ->
  plan_of k (mkSettings (s_kind s) (s_iterations s) (s_query_iterations s) (s_perp_tolerance s) o (s_seed s)) iters kb kt = plan_of k s iters kb' kt'.
Proof. intros N1 N2 E1 E2 E3. destruct k; try congruence; cbn [plan_of s_others s_perp_tolerance]; rewrite E1, E2, E3; reflexivity. Qed.

(** ** C233: priors over topics *)
Section Priors.
  Context (rnd : Q -> Q).
  (** What the documentation says a prior means: a number for all, or one for each; in
      the precision of the model. *)
  Definition meaning (k : kind) (n : nat) (p : prior) : option (list Q) :=
    match p with
    | PNone => None
    | PNum _ x => Some (repeat (stored rnd k x) n)
    | PVec t v => Some (match model_dtype k, t with F32, F64 => map rnd v | _, _ => v end)
    end.
  Theorem C233_default k K : topic_prior rnd k K PNone = Ok (repeat (match k with CVB0 | CVB => rnd (qmean (repeat (rnd (topic_default k K)) K)) | _ => stored rnd k (topic_default k K) end) K).
  Proof. destruct k; reflexivity. Qed.
  (** The numbers of old papers: fifty over the number of topics, or five, and a half
      more where a variational method is to behave as a sampler does. *)
  Theorem C233_default_values k K : 0 < K -> let n := inject_Z (Z.of_nat K) in
    exists q, topic_prior (fun x => x) k K PNone = Ok (repeat q K) /\
    (q == match k with VB | SVB | Gibbs => 50 / n | VBPython | MomVB | MomGibbs => 5 / n + (1 # 2) | CVB0 | CVB => 50 / n + (1 # 2) end)%Q.
  Proof.
    intros HK n.
    assert (QM : forall x, (qmean (repeat x K) == x)%Q).
    { intros x. unfold qmean. rewrite repeat_length.
      assert (SA : forall m, (fold_right Qplus 0 (repeat x m) == inject_Z (Z.of_nat m) * x)%Q).
      { intros m. induction m as [|m IH]; [cbn; ring|]. cbn [repeat fold_right]. rewrite IH, Nat2Z.inj_succ, <- Z.add_1_r, inject_Z_plus. ring. }
      rewrite SA. field. unfold Qeq, inject_Z. cbn [Qnum Qden]. lia. }
    destruct k; cbn; eexists; (split; [reflexivity|]); try rewrite QM; reflexivity.
  Qed.
  Theorem C233_numbers k K x : k <> CVB0 -> k <> CVB -> k <> VB ->
    topic_prior rnd k K (PNum PyFloat x) = Ok (repeat (stored rnd k x) K).
  Proof. intros N1 N2 N3. destruct k; try congruence; reflexivity. Qed.
  Theorem C233_vectors k K v : k <> CVB0 -> k <> CVB ->
    topic_prior rnd k K (PVec (model_dtype k) v) = Ok v.
  Proof. intros N1 N2. destruct k; try congruence; reflexivity. Qed.
  (** What is accepted is used as documented. *)
  Theorem C233_accepted k K p v : k <> CVB0 -> k <> CVB -> p <> PNone -> topic_prior rnd k K p = Ok v -> meaning k K p = Some v.
  Proof.
    intros N1 N2 N3. destruct p as [|n x|t u]; [congruence| |]; destruct k; try congruence;
      try destruct n; try destruct t; intros E; try discriminate E; injection E as <-; reflexivity.
  Qed.
  (** The three models with collapsed or compiled training take no Python number, four
      others no integer; and only the collapsed ones take a numpy number. *)
  Theorem C233_numbers_refuted K x :
    (forall k, In k [CVB0; CVB; VB] -> exists e, topic_prior rnd k K (PNum PyFloat x) = Raise e) /\
    (forall k, k <> Gibbs -> exists e, topic_prior rnd k K (PNum PyInt x) = Raise e) /\
    (forall k, k <> CVB0 -> k <> CVB -> exists e, topic_prior rnd k K (PNum NpFloat x) = Raise e).
  Proof.
    split; [|split].
    - intros k [<-|[<-|[<-|[]]]]; eexists; reflexivity.
    - intros k N. destruct k; try congruence; eexists; reflexivity.
    - intros k N1 N2. destruct k; try congruence; eexists; reflexivity.
  Qed.
  (** The collapsed models only see the mean of a vector. *)
  Theorem C233_only_the_mean k K t v : k = CVB0 \/ k = CVB -> topic_prior rnd k K (PVec t v) = Ok (repeat (rnd (qmean v)) K).
  Proof. intros [-> | ->]; reflexivity. Qed.
  (** Vectors of another precision, as numpy makes them, are refused by the compiled loops,
      and vectors of whole numbers by all but the collapsed models. *)
  Theorem C233_precision_refuted K v :
    topic_prior rnd VB K (PVec F64 v) = Raise ValueError /\ topic_prior rnd SVB K (PVec F64 v) = Raise ValueError /\
    forall k, k <> CVB0 -> k <> CVB -> exists e, topic_prior rnd k K (PVec I64 v) = Raise e.
  Proof. repeat split. intros k N1 N2. destruct k; try congruence; eexists; reflexivity. Qed.

  (** ** C234: priors over words *)
  Theorem C234_default k T : word_prior rnd k T PNone = Ok (repeat (stored rnd k (word_default k)) T).
  Proof.
    destruct k; try reflexivity. unfold word_prior, keep_word, use_word, constant. cbn [bind]. rewrite repeat_length, Nat.eqb_refl. reflexivity.
  Qed.
  Theorem C234_default_values k T : exists q, word_prior (fun x => x) k T PNone = Ok (repeat q T) /\
    (q == match k with CVB0 | CVB => 6 # 10 | Gibbs => 1 # 10 | _ => 11 # 10 end)%Q.
  Proof.
    destruct k; try (eexists; split; reflexivity).
    unfold word_prior, keep_word, use_word, constant. cbn [bind]. rewrite repeat_length, Nat.eqb_refl. eexists. split; reflexivity.
  Qed.
  Theorem C234_numbers k T x : word_prior rnd k T (PNum PyFloat x) = Ok (repeat (stored rnd k x) T).
  Proof.
    destruct k; try reflexivity. unfold word_prior, keep_word, use_word, constant. cbn [bind]. rewrite repeat_length, Nat.eqb_refl. reflexivity.
  Qed.
  Theorem C234_other_numbers k T n x : k <> Gibbs -> word_prior rnd k T (PNum n x) = Ok (repeat (stored rnd k x) T).
  Proof.
    intros N. destruct k; try congruence; destruct n; try reflexivity; unfold word_prior, keep_word, use_word, constant; cbn [bind]; rewrite repeat_length, Nat.eqb_refl; reflexivity.
  Qed.
  Theorem C234_vectors k T v : In k [Gibbs; MomVB; MomGibbs] -> List.length v = T -> word_prior rnd k T (PVec F64 v) = Ok v.
  Proof. intros [<-|[<-|[<-|[]]]] L; cbn [word_prior keep_word use_word bind memoryview dtype_eqb]; unfold word_prior, keep_word, use_word; cbn [bind]; rewrite ?L, ?Nat.eqb_refl; reflexivity. Qed.
  Theorem C234_accepted k T p v : p <> PNone -> word_prior rnd k T p = Ok v -> meaning k T p = Some v.
  Proof.
    intros N3. destruct p as [|n x|t u]; [congruence| |].
    - destruct k; try (intros E; injection E as <-; reflexivity).
      + destruct n; intros E; try discriminate E; injection E as <-; reflexivity.
      + unfold word_prior, keep_word, use_word, constant. cbn [bind]. rewrite repeat_length, Nat.eqb_refl. intros E. injection E as <-. reflexivity.
    - destruct k; try (intros E; discriminate E).
      + destruct t; intros E; try discriminate E; injection E as <-; reflexivity.
      + unfold word_prior, keep_word, use_word. cbn [bind]. destruct (Nat.eqb _ _); [|discriminate]. intros E. injection E as <-. destruct t; reflexivity.
      + unfold word_prior, keep_word, use_word. cbn [bind]. destruct (Nat.eqb _ _); [|discriminate]. intros E. injection E as <-. destruct t; reflexivity.
  Qed.
  (** The other five take no vector, and LDA_GIBBS no number that is not a Python float. *)
  Theorem C234_vectors_refuted T t v :
    (forall k, In k [CVB0; CVB; VB; VBPython; SVB] -> exists e, word_prior rnd k T (PVec t v) = Raise e) /\
    (forall n x, n <> PyFloat -> exists e, word_prior rnd Gibbs T (PNum n x) = Raise e).
  Proof.
    split.
    - intros k [<-|[<-|[<-|[<-|[<-|[]]]]]]; eexists; reflexivity.
    - intros n x N. destruct n; try congruence; eexists; reflexivity.
  Qed.
End Priors.
(** Priors with the same mean are the same to the collapsed models. *)
Theorem C233_uneven_refuted : exists v v', v <> v' /\ List.length v = 2 /\ List.length v' = 2 /\
  forall k rnd t, k = CVB0 \/ k = CVB -> topic_prior rnd k 2 (PVec t v) = topic_prior rnd k 2 (PVec t v').
Proof.
  exists [1; 3]%Q, [3; 1]%Q. split; [discriminate|]. split; [reflexivity|]. split; [reflexivity|].
  intros k rnd t H. rewrite !C233_only_the_mean by exact H. reflexivity.
Qed.

(** ** C235: scores by kind *)
Section Scores.
  Context {Mdl Qs Dat Y Cm V : Type} (ops : @module_ops Mdl Qs Dat Y Cm V) (heap : nat -> Dat)
          (split : nat -> Dat -> res (Dat * Dat)) (qits : Z).
  Notation score k := (score (kind_ops k ops) heap split qits).
  (** No expected score of six kinds. *)
  Theorem C235_expected_refuted k x y yq m s v : k <> CVB0 -> k <> MomVB -> is_point_estimate m = false ->
    snd (score k x y yq m s) <> Ok v.
  Proof.
    intros N1 N2 P. unfold SkModel.score. rewrite P.
    assert (HE : has_expected k = false) by (destruct k; try congruence; reflexivity).
    assert (E : forall d md q, ll_expected (kind_ops k ops) d md q = Raise AttributeError) by (intros; cbn [kind_ops ll_expected]; rewrite HE; reflexivity).
    destruct y as [y|], yq as [yq|]; try (cbn [snd bind]; discriminate).
    - cbn [snd bind]. destruct (model (ticked s)); [rewrite E|]; discriminate.
    - destruct (negb (is_doc_completion m)).
      + destruct (transform_ _ _ _ _ _ _) as [s1 [yy|e]]; cbn [snd bind]; discriminate.
      + destruct (split _ _) as [[d1 d2]|e]; [|discriminate]. destruct (transform_ _ _ _ _ _ _) as [s1 [yy|e]]; cbn [snd bind]; discriminate.
  Qed.
  (** LDA_GIBBS has no perplexity and no score of given topics. *)
  Theorem C235_gibbs_perplexity_refuted x y yq m s v : is_perplexity m = true -> snd (score Gibbs x y yq m s) <> Ok v.
  Proof.
    intros P. unfold SkModel.score. rewrite P.
    match goal with |- snd (let '(s1, r) := ?A in _) <> _ => destruct A as [s1 [[[d yy] q]|e]] end; [|discriminate].
    cbn [snd bind]. match goal with |- (do w <- ?A; _) <> _ => destruct A end; discriminate.
  Qed.
  Theorem C235_gibbs_given_topics_refuted x y m s v : snd (score Gibbs x (Some y) None m s) <> Ok v.
  Proof.
    unfold SkModel.score. cbn [snd]. destruct (negb _); [discriminate|]. destruct (make_or_resume _ _ _ _ _ _); discriminate.
  Qed.
  (** What does work: scores at a point for every kind, given a query state; perplexity for
      all but LDA_GIBBS; expected scores of LDA_CVB0 and MOM_VB. *)
  Theorem C235_point k x q m s md v : model s = Some md -> m = LLPoint \/ m = DocLLPoint ->
    ll_point ops (contents heap x) (topics_of ops q) (words_of ops md) = Ok v -> snd (score k x None (Some q) m s) = Ok v.
  Proof.
    intros M Hm E. destruct Hm as [-> | ->]; unfold SkModel.score, components; cbn [snd bind is_point_estimate is_perplexity ticked model]; rewrite M; cbn [bind kind_ops words_of topics_of ll_point];
      rewrite E; reflexivity.
  Qed.
  Theorem C235_point_perplexity k x q m s md u : k <> Gibbs -> model s = Some md -> m = PerpPoint \/ m = DocPerpPoint ->
    ll_point ops (contents heap x) (topics_of ops q) (words_of ops md) = Ok u ->
    snd (score k x None (Some q) m s) = perplexity ops u (contents heap x).
  Proof.
    intros N M Hm E. assert (HP : has_perplexity k = true) by (destruct k; try congruence; reflexivity).
    destruct Hm as [-> | ->]; unfold SkModel.score, components; cbn [snd bind is_point_estimate is_perplexity ticked model]; rewrite M; cbn [bind kind_ops words_of topics_of ll_point perplexity];
      rewrite E; cbn [bind]; rewrite HP; reflexivity.
  Qed.
  Theorem C235_expected k x q s md : k = CVB0 \/ k = MomVB -> model s = Some md ->
    snd (score k x None (Some q) LLExpected s) = ll_expected ops (contents heap x) md q.
  Proof.
    intros Hk M. destruct Hk as [-> | ->]; unfold SkModel.score; cbn [snd bind is_point_estimate is_perplexity ticked model]; rewrite M;
      cbn [kind_ops ll_expected has_expected]; destruct (ll_expected ops _ _ _); reflexivity.
  Qed.
End Scores.

(** ** C236: corpora that every kind takes *)
Theorem C236_several_documents k t docs : 1 < docs -> t <> I64 -> take_corpus k t docs = Ok tt.
Proof.
  intros N T. unfold take_corpus, to_word_list, lens_rank. destruct (Nat.eqb_spec docs 1); [lia|].
  destruct k, t; try congruence; reflexivity.
Qed.
(** Only MOM_VB takes a single document. *)
Theorem C236_single_document_refuted k t : take_corpus k t 1 = Ok tt <-> k = MomVB.
Proof. split; [destruct k, t; intros H; try discriminate H; reflexivity|intros ->; reflexivity]. Qed.
(** Counts of 64 bits, the default of numpy and of scikit-learn's vectorisers, are
    refused by four kinds whatever the number of documents. *)
Theorem C236_long_counts_refuted k docs : 1 < docs -> take_corpus k I64 docs = Ok tt <-> ~ In k [CVB0; CVB; VB; SVB].
Proof.
  intros N. unfold take_corpus, to_word_list, lens_rank. destruct (Nat.eqb_spec docs 1); [lia|].
  split.
  - intros H [<-|[<-|[<-|[<-|[]]]]]; discriminate H.
  - intros H. destruct k; try reflexivity; exfalso; apply H; cbn [In]; tauto.
Qed.

(** ** C237: transform looks at the words *)
Section Queries.
  Context {W T : Type} (lengths : W -> list nat) (start : list nat -> T) (step : W -> T -> T) (close : T -> T -> bool)
          (average : list T -> T).
  Notation transform := (transform_topics lengths start step close average).
  Notation query := (query_topics lengths start step close average).
  Notation samples := (samples step).

  Lemma samples_none p : forall n from w x, (forall i, i < n -> p (from + i) = false) -> samples p from n w x = [].
  Proof.
    induction n as [|n IH]; intros from w x H; [reflexivity|]. cbn [EstModel.samples].
    rewrite <- (Nat.add_0_r from) at 1. rewrite H by lia. cbn [app]. apply IH. intros i Hi.
    replace (S from + i) with (from + S i) by lia. apply H. lia.
  Qed.
  Lemma samples_some p : forall n from w x i, i < n -> p (from + i) = true -> samples p from n w x <> [].
  Proof.
    induction n as [|n IH]; intros from w x i Hi H; [lia|]. cbn [EstModel.samples]. destruct i as [|i].
    - rewrite Nat.add_0_r in H. rewrite H. discriminate.
    - intros E. apply app_eq_nil in E. destruct E as [_ E]. revert E. apply (IH (S from) w _ i); [lia|].
      replace (S from + i) with (from + S i) by lia. exact H.
  Qed.
  Lemma mean_some l : l <> [] -> mean_of average l = Some (average l).
  Proof. destruct l; [contradiction|reflexivity]. Qed.

  (** The number of iterations of transform, when none is given. *)
  Theorem C237_iterations k a s w : build a = Ok s -> s_query_iterations a = None ->
    transform k s w = query k s (Z.to_nat (s_iterations a / 10)) w.
  Proof.
    intros B E. unfold build, construct in B. destruct (lookup _); [|discriminate]. cbn [bind] in B. injection B as <-.
    unfold transform_topics. cbn [s_query_iterations or_z]. rewrite E. cbn [or_z].
    destruct (Z.eqb_spec (s_iterations a / 10) 0) as [->|]; reflexivity.
  Qed.
  (** With fewer than ten iterations of training, the topics are as they were drawn: they
      do not depend on the words; or they are not numbers; or there is an error. *)
  Theorem C237_unseen_words_refuted k a s w : build a = Ok s -> s_query_iterations a = None -> (0 <= s_iterations a < 10)%Z ->
    (thin (s_others s) < 0)%Z ->
    transform k s w = match k with
                      | Gibbs | MomGibbs => Ok None
                      | MomVB => Raise UnboundLocalError
                      | _ => Ok (Some (start (lengths w)))
                      end.
  Proof.
    intros B E R TH. rewrite (C237_iterations k a s w B E).
    replace (s_iterations a / 10)%Z with 0%Z by (symmetry; apply Z.div_small; lia). change (Z.to_nat 0) with 0.
    destruct k; try reflexivity. unfold query_topics, gibbs_plan. cbn [Z.of_nat].
    destruct (Z.ltb_spec (thin (s_others s)) 0); [|lia]. cbn [Z.leb Z.compare].
    destruct (Z.ltb_spec (burn_in (s_others s)) 0).
    - reflexivity.
    - replace (0 + burn_in (s_others s) - burn_in (s_others s))%Z with 0%Z by lia. reflexivity.
  Qed.
  (** LDA_GIBBS takes a sample every five sweeps, so has none with fewer than fifty. *)
  Theorem C237_gibbs_refuted a s w : build a = Ok s -> s_query_iterations a = None -> (0 <= s_iterations a < 50)%Z ->
    (thin (s_others s) < 0)%Z -> transform Gibbs s w = Ok None.
  Proof.
    intros B E R TH. rewrite (C237_iterations Gibbs a s w B E). unfold query_topics, gibbs_plan.
    assert (Hn : (0 <= s_iterations a / 10 < 5)%Z) by (split; [apply Z.div_pos; lia|apply Z.div_lt_upper_bound; lia]).
    rewrite Z2Nat.id by lia. set (n := (s_iterations a / 10)%Z) in *.
    destruct (Z.ltb_spec (thin (s_others s)) 0); [|lia]. destruct (Z.leb_spec n 100); [|lia]. cbn [Z.eqb].
    match goal with |- Ok (mean_of _ (samples _ 0 ?m _ ?x)) = _ => replace m with (Z.to_nat n) by (f_equal; lia); rewrite (samples_none _ (Z.to_nat n) 0 w x); [reflexivity|] end.
    intros i Hi. cbn [Nat.add]. rewrite Z.mod_small by lia. apply Z.eqb_neq. lia.
  Qed.
  (** MOM_GIBBS divides by zero from twenty to ninety-nine. *)
  Theorem C237_mom_gibbs_refuted a s w : build a = Ok s -> s_query_iterations a = None -> (20 <= s_iterations a < 100)%Z ->
    transform MomGibbs s w = Raise ZeroDivisionError.
  Proof.
    intros B E R. rewrite (C237_iterations MomGibbs a s w B E). unfold query_topics, mom_gibbs_plan.
    assert (Hn : (2 <= s_iterations a / 10 < 10)%Z) by (split; [apply Z.div_le_lower_bound; lia|apply Z.div_lt_upper_bound; lia]).
    rewrite Z2Nat.id by lia. set (n := (s_iterations a / 10)%Z) in *.
    replace (n / 10)%Z with 0%Z by (symmetry; apply Z.div_small; lia). change (Z.min 1 0 =? 0)%Z with true.
    destruct (existsb _ _) eqn:X; [reflexivity|]. exfalso. apply not_true_iff_false in X. apply X. apply existsb_exists.
    exists (Z.to_nat n - 1). split; [apply in_seq; lia|]. apply andb_true_intro. split; [apply Nat.ltb_lt; lia|].
    apply Z.ltb_lt. assert (n / 4 < n - 1)%Z by (apply Z.div_lt_upper_bound; lia). lia.
  Qed.
  (** The compiled variational models raise from ten iterations on. *)
  Theorem C237_compiled_refuted k a s w : build a = Ok s -> s_query_iterations a = None -> (10 <= s_iterations a)%Z ->
    k = VB \/ k = SVB -> transform k s w = Raise ValueError.
  Proof.
    intros B E R H. rewrite (C237_iterations k a s w B E). assert (Hn : (1 <= s_iterations a / 10)%Z) by (apply Z.div_le_lower_bound; lia).
    destruct (Z.to_nat (s_iterations a / 10)) as [|n] eqn:EN; [lia|]. destruct H as [->| ->]; reflexivity.
  Qed.
  (** From a hundred iterations, all kinds that can be queried infer topics: the states
      after at least ten steps, or an average of at least one. *)
  Theorem C237_enough k a s w : build a = Ok s -> s_query_iterations a = None -> (100 <= s_iterations a)%Z ->
    (thin (s_others s) < 0)%Z -> k <> VB -> k <> SVB -> exists x, transform k s w = Ok (Some x).
  Proof.
    intros B E R TH N1 N2. rewrite (C237_iterations k a s w B E).
    assert (Hn : (10 <= s_iterations a / 10)%Z) by (apply Z.div_le_lower_bound; lia).
    unfold query_topics. rewrite Z2Nat.id by lia. set (n := (s_iterations a / 10)%Z) in *.
    destruct k; try congruence; try (eexists; reflexivity).
    - unfold gibbs_plan. destruct (Z.ltb_spec (thin (s_others s)) 0); [|lia].
      assert (P : forall th x m, (0 < th <= n)%Z -> m = Z.to_nat n -> exists y, mean_of average (samples (fun i => (Z.of_nat (S i) mod th =? 0)%Z) 0 m w x) = Some y).
      { intros th x m Hth ->. eexists. apply mean_some. apply (samples_some _ _ _ _ _ (Z.to_nat th - 1)); [lia|].
        replace (Z.of_nat (S (0 + (Z.to_nat th - 1)))) with th by lia. rewrite Z.mod_same by lia. reflexivity. }
      destruct (Z.leb_spec n 100).
      + cbn [Z.eqb]. edestruct (P 5%Z) as [y ->]; [lia|f_equal; lia|eexists; reflexivity].
      + destruct (Z.leb_spec n 1000); cbn [Z.eqb]; [edestruct (P 10%Z) as [y ->]|edestruct (P 50%Z) as [y ->]]; try lia; try (f_equal; lia); eexists; reflexivity.
    - destruct (Z.to_nat n) eqn:Z0; [lia|]. eexists. reflexivity.
    - unfold mom_gibbs_plan. assert (1 <= n / 10)%Z by (apply Z.div_le_lower_bound; lia).
      replace (Z.min 1 (n / 10)) with 1%Z by lia. cbn [Z.eqb]. rewrite andb_false_r. eexists. f_equal. apply mean_some.
      apply (samples_some _ _ _ _ _ (Z.to_nat n - 1)); [lia|]. cbn [Nat.add]. rewrite Z.mod_1_r. cbn [Z.eqb]. rewrite andb_true_r.
      apply andb_true_intro. split; [apply Nat.ltb_lt; lia|]. apply Z.ltb_lt. assert (n / 4 < n - 1)%Z by (apply Z.div_lt_upper_bound; lia). lia.
  Qed.
End Queries.

(** ** Cases *)
Example C230_case : exists s, build (plain MomGibbs) = Ok s /\ clonable s /\ s_query_iterations s = Some 100%Z.
Proof.
  eexists. split; [reflexivity|]. split; [|reflexivity]. apply C230_clone_iff. reflexivity.
Qed.
Example C231_case : build (plain VB) <> Raise KeyError /\ build (mkSettings (KName "LDA") 10 None None plain_others 0) = Raise KeyError /\
  lookup (KName "LDA_GIBBS") = Ok Gibbs.
Proof. split; [discriminate|]. split; reflexivity. Qed.
Example C232_case : p_batch (plan_of SVB (plain SVB) 10 None None) = None /\
  p_burn (plan_of Gibbs (plain Gibbs) 10 (Some 3%Z) None) = Some (3, -1)%Z /\ gibbs_plan 10 3 (-1) = (13, 3, 5)%Z.
Proof. repeat split; reflexivity. Qed.
Example C233_case : topic_prior (fun q => q) SVB 2 (PNum PyFloat (1 # 2)) = Ok [1 # 2; 1 # 2] /\
  topic_prior (fun q => q) SVB 2 (PVec F32 [1; 3]%Q) = Ok [1; 3]%Q /\ (qmean [1; 3] == 2)%Q.
Proof. repeat split; reflexivity. Qed.
Example C234_case : word_prior (fun q => q) MomVB 2 (PVec F64 [1; 3]%Q) = Ok [1; 3]%Q /\ word_prior (fun q => q) CVB0 2 (PNum PyInt 1) = Ok [1; 1]%Q.
Proof. split; reflexivity. Qed.
Example C235_case : is_point_estimate PerpExpected = false /\ is_perplexity PerpExpected = true.
Proof. split; reflexivity. Qed.
Example C236_case : take_corpus SVB F64 2 = Ok tt /\ take_corpus Gibbs I64 2 = Ok tt /\ take_corpus Gibbs I32 1 = Raise IndexError.
Proof. repeat split; reflexivity. Qed.
(** Topics as counts of steps: with a hundred iterations ten steps, with nine none. *)
Example C237_case : exists s t, build (mkSettings (KType CVB0) 100 None None plain_others 1) = Ok s /\
  build (mkSettings (KType CVB0) 9 None None plain_others 1) = Ok t /\
  transform_topics (fun w : list nat => w) (fun _ => 0) (fun _ => S) Nat.eqb (fun _ => 0) CVB0 s [3] = Ok (Some 10) /\
  transform_topics (fun w : list nat => w) (fun _ => 0) (fun _ => S) Nat.eqb (fun _ => 0) CVB0 t [3] = Ok (Some 0).
Proof. eexists. eexists. split; [reflexivity|]. split; [reflexivity|]. split; reflexivity. Qed.

Print Assumptions C230_clone_iff.
Print Assumptions C230_clone.
Print Assumptions C230_clones_agree.
Print Assumptions C230_clone_of_set_refuted.
Print Assumptions C230_set_iterations.
Print Assumptions C230_set_others.
Print Assumptions C230_set_accepted.
Print Assumptions C230_set_is_construct_refuted.
Print Assumptions C230_copy_refuted.
Print Assumptions C231_start.
Print Assumptions C231_reproducible.
Print Assumptions C231_assigned.
Print Assumptions C231_gibbs_ignores_seed.
Print Assumptions C231_last_seed_counts.
Print Assumptions C231_own_seed_refuted.
Print Assumptions C231_gibbs_seed_refuted.
Print Assumptions C232_every_kind.
Print Assumptions C232_online.
Print Assumptions C232_gibbs.
Print Assumptions C232_zero_burn_in_refuted.
Print Assumptions C232_ignored_refuted.
Print Assumptions C233_default.
Print Assumptions C233_default_values.
Print Assumptions C233_numbers.
Print Assumptions C233_vectors.
Print Assumptions C233_accepted.
Print Assumptions C233_numbers_refuted.
Print Assumptions C233_only_the_mean.
Print Assumptions C233_precision_refuted.
Print Assumptions C234_default.
Print Assumptions C234_default_values.
Print Assumptions C234_numbers.
Print Assumptions C234_other_numbers.
Print Assumptions C234_vectors.
Print Assumptions C234_accepted.
Print Assumptions C234_vectors_refuted.
Print Assumptions C233_uneven_refuted.
Print Assumptions C235_expected_refuted.
Print Assumptions C235_gibbs_perplexity_refuted.
Print Assumptions C235_gibbs_given_topics_refuted.
Print Assumptions C235_point.
Print Assumptions C235_point_perplexity.
Print Assumptions C235_expected.
Print Assumptions C236_several_documents.
Print Assumptions C236_single_document_refuted.
Print Assumptions C236_long_counts_refuted.
Print Assumptions C237_iterations.
Print Assumptions C237_unseen_words_refuted.
Print Assumptions C237_gibbs_refuted.
Print Assumptions C237_mom_gibbs_refuted.
Print Assumptions C237_compiled_refuted.
Print Assumptions C237_enough.
