(** * Properties of the variational bounds of latent Dirichlet allocation (C191-C195). *)
From Coq Require Import List Reals ZArith Arith Bool Lra Lia.
From Verif Require Import Base RealModel RealProofs VbModel VbProofs VbFastModel BoundSpec BoundProofs GammaProofs GammaWitness BoundModel BoundMore BoundCvb.
Import ListNotations.
Open Scope nat_scope.

Lemma vsum2 v : vsum 2 v = (v 0%nat + v 1%nat)%R.
Proof. unfold vsum. cbn [seq map rsum]. ring. Qed.
Lemma vsum1 v : vsum 1 v = v 0.
Proof. unfold vsum. cbn [seq map rsum]. ring. Qed.

(** The words of the corpora. *)
Lemma tokens_of_in nd T e : Forall (Forall (fun e => fst e < T)) nd -> In e (tokens_of nd) -> fst e < length nd /\ snd e < T.
Proof.
  intros H He. apply in_flat_map in He as (d & Hd & He). apply in_seq in Hd. apply in_flat_map in He as (x & Hx & He).
  apply repeat_spec in He. subst e. cbn [fst snd]. split; [lia|]. rewrite Forall_forall in H.
  pose proof (H _ (nth_In nd [] (proj2 Hd))) as F. rewrite Forall_forall in F. apply F, Hx.
Qed.
Lemma positions_in D W lens T e : (forall d n, d < D -> n < lens d -> W d n < T) -> In e (positions D W lens) -> fst e < D /\ snd e < T.
Proof. intros H He. apply (pos_in D W lens (fun _ _ _ => 0%R)) in He as (d & n & Hd & Hn & ->). split; [exact Hd|apply H; assumption]. Qed.

(** ** C191: what var_bound of lda_vb_python returns is below the log probability of the
    corpus, and so is never positive. *)
(** What the evidence is: it is positive, one for no words, and over all words that may
    come next it adds up. *)
Theorem C191_evidence_distribution g psi D K T alpha eta : log_gamma g psi -> 0 < K -> 0 < T ->
  (forall k, k < K -> (0 < alpha k)%R) -> (forall t, t < T -> (0 < eta t)%R) ->
  evidence g D K T alpha eta [] = 1%R /\
  (forall tk, (0 < evidence g D K T alpha eta tk)%R) /\
  (forall d tk, d < D -> vsum T (fun t => evidence g D K T alpha eta ((d, t) :: tk)) = evidence g D K T alpha eta tk).
Proof.
  intros (G & _) HK HT PA PE. split; [apply evidence_nil|]. split; [intros; apply evidence_pos, HK|].
  intros d tk Hd. apply evidence_cons; assumption.
Qed.
Theorem C191_below_evidence psi gammaln K T a nd docLens prior wp eta word topics : log_gamma gammaln psi ->
  0 < K -> (0 < a)%R -> (wp = WVec eta \/ exists w, wp = WNum w /\ eta = fun _ => w) ->
  (forall k, k < K -> (0 < prior k)%R) -> (forall t, t < T -> (0 < eta t)%R) ->
  (forall d k, d < length nd -> k < K -> (0 < topics d k)%R) -> (forall k t, k < K -> t < T -> (0 < word k t)%R) ->
  Forall (Forall (fun e => fst e < T)) nd -> (forall d, d < length nd -> (docLens d <> 0)%R) ->
  exists b, var_bound_py psi gammaln K T a (real_corpus nd) docLens prior wp word topics = Ok b /\
    (b <= ln (evidence gammaln (length nd) K T prior eta (tokens_of nd)))%R /\ (0 < T -> (b <= 0)%R).
Proof.
  intros (G & CX & DV) HK Ha HW PA PE PG PL HT HL.
  pose proof (log_gamma_convex gammaln G CX psi DV) as CV.
  assert (LD : length (real_corpus nd) = length nd) by apply map_length.
  eexists. split; [apply (var_bound_is psi gammaln K T (real_corpus nd) prior eta a docLens wp topics word HK); [rewrite LD; exact HL|exact HW]|].
  set (b := form _ _ _ _ _ _ _ _ _ _ _).
  assert (B : (b <= ln (evidence gammaln (length nd) K T prior eta (tokens_of nd)))%R).
  { eapply Rle_trans; [|apply (form_le psi gammaln K T nd prior eta topics word (zs psi K T topics word) CV PA PE PG PL); [intros; apply zs_proper, HK|exact HT]].
    unfold b. apply form_slog; [exact Ha| |intros; apply soft_pos, HK].
    intros d e Hd He. rewrite real_nth in He. apply in_map_iff in He as (e' & <- & _). cbn [snd]. apply pos_INR. }
  split; [exact B|]. intros PT. eapply Rle_trans; [exact B|]. rewrite <- ln_1.
  assert (E : (evidence gammaln (length nd) K T prior eta (tokens_of nd) <= 1)%R).
  { apply evidence_le_1; try assumption. apply Forall_forall. intros e He. apply (tokens_of_in nd T e HT He). }
  destruct E as [E|E]; [left; apply ln_increasing; [apply evidence_pos, HK|exact E]|right; rewrite E; reflexivity].
Qed.
Definition nd0 : list (list (nat * nat)) := [[(0, 2); (1, 1)]; [(1, 1)]].
Example C191_ex : exists b,
  var_bound_py digamma lnGamma 2 2 (/ 10 ^ 300) (real_corpus nd0) (fun d => if d =? 0 then 3%R else 1%R) (fun _ => 0.1%R) (WNum 0.1%R)
    (fun k t => INR (k + t) + 1)%R (fun d k => INR (d + k) + 1)%R = Ok b /\
  (b <= ln (evidence lnGamma 2 2 2 (fun _ => 0.1%R) (fun _ => 0.1%R) [(0, 0); (0, 0); (0, 1); (1, 1)]%nat))%R /\ (b <= 0)%R.
Proof.
  edestruct (C191_below_evidence digamma lnGamma 2 2 (/ 10 ^ 300) nd0 (fun d => if d =? 0 then 3%R else 1%R) (fun _ => 0.1%R) (WNum 0.1%R) (fun _ => 0.1%R)
    (fun k t => INR (k + t) + 1)%R (fun d k => INR (d + k) + 1)%R lnGamma_log_gamma) as (b & E & L & N).
  - lia.
  - apply Rinv_0_lt_compat, pow_lt. lra.
  - right. eexists. split; reflexivity.
  - intros; lra.
  - intros; lra.
  - intros d k _ _. pose proof (pos_INR (d + k)). lra.
  - intros k t _ _. pose proof (pos_INR (k + t)). lra.
  - repeat constructor.
  - intros d _. destruct (d =? 0); lra.
  - exists b. split; [exact E|]. split; [exact L|apply N; lia].
Qed.

(** ** C192: a word prior with which a model can be trained can also be used for the
    bound, and the priors documented can be used for both. *)
Definition usable psi gammaln bnd K T a docs docLens prior wp p word topics : Prop :=
  exists word' topics' log b, train_any psi bnd K T docs docLens prior wp p word topics true = Ok (word', topics', log) /\
    var_bound_py psi gammaln K T a docs docLens prior wp word' topics' = Ok b.
Lemma train_batch_ok psi bnd K T docs docLens prior x p word topics upd : 0 < K -> 0 < length docs -> corpus T docs docLens -> p_rate p = RBatch ->
  exists r, VbModel.train psi bnd K T docs docLens prior x p word topics upd = Ok r.
Proof.
  intros HK HD HC HP. unfold VbModel.train, train_state.
  assert (X : existsb (fun d => rltb (docLens d) 1) (seq 0 (length docs)) = false).
  { apply not_true_iff_false. intros H. apply existsb_exists in H as (d & Hd & H). apply in_seq in Hd.
    destruct HC as [_ L]. destruct (L d ltac:(lia)) as [_ L2]. unfold rltb in H. destruct (Rlt_dec (docLens d) 1); [lra|discriminate]. }
  rewrite X. unfold batch_sizes. rewrite HP. cbn [bind]. replace (Z.of_nat (length docs) =? 0)%Z with false by (symmetry; apply Z.eqb_neq; lia).
  rewrite Nat2Z.id.
  set (s0 := VbModel.mkV _ _ _ _ _ _ _ _). assert (V : v_d s0 = (-1)%Z \/ v_d s0 = (Z.of_nat (length docs) - 1)%Z) by (left; reflexivity).
  clearbody s0. cbv zeta. remember (Z.to_nat (1 * p_iterations p)) as n eqn:En. clear En.
  assert (G : forall n b s, v_d s = (-1)%Z \/ v_d s = (Z.of_nat (length docs) - 1)%Z -> exists s', batches psi bnd K T docs docLens prior x p (length docs) n b s = Ok s').
  { clear n s0 V. induction n as [|n IH]; intros b s V; [eexists; reflexivity|]. cbn [batches]. unfold one_batch.
    assert (E : forall means grad log, exists means' grad' log', visits psi K T docs docLens prior (length docs) (v_word s) (v_d s, means, grad, log) = Ok ((Z.of_nat (length docs) - 1)%Z, means', grad', log')).
    { intros means grad log. destruct (visits_exact psi bnd K T docs docLens prior x HK HD HC (v_word s) means (length docs) 0 means grad log ltac:(lia) ltac:(reflexivity))
        as (d' & means' & grad' & log' & EV & Ed & _). change (Z.of_nat 0 - 1)%Z with (-1)%Z in EV. rewrite Nat.add_0_l in Ed.
      exists means', grad', log'. rewrite <- Ed, <- EV. destruct V as [->| ->]; [reflexivity|]. apply (visits_start psi bnd K T docs docLens prior HK HD); assumption. }
    destruct (E (v_means s) ((fun _ _ => x) : mat) (v_log s)) as (means' & grad' & log' & EV). cbv zeta. rewrite EV. cbn [bind]. unfold adjust. rewrite HP. cbn [bind].
    apply IH. right. reflexivity. }
  destruct (G n 0 s0 V) as (s' & E). rewrite E. cbn [bind]. eexists. reflexivity.
Qed.

Theorem C192_usable_iff psi gammaln bnd K T a docs docLens prior wp p word topics : 0 < K -> 2 <= T -> 0 < length docs -> corpus T docs docLens ->
  p_rate p = RBatch -> (0 < p_iterations p)%Z ->
  usable psi gammaln bnd K T a docs docLens prior wp p word topics <-> exists x, wp = WNum x.
Proof.
  intros HK _ HD HC HP HI. split.
  - intros (word' & topics' & log & b & E & B). destruct wp as [x|v|x]; [eexists; reflexivity| |discriminate B].
    exfalso. unfold train_any in E. destruct (existsb _ _); [discriminate|]. unfold batch_sizes in E. rewrite HP in E. cbn [bind] in E.
    destruct (_ =? 0)%Z; [discriminate|]. replace (0 <? 1 * p_iterations p)%Z with true in E by (symmetry; apply Z.ltb_lt; lia). discriminate.
  - intros [x ->]. destruct (train_batch_ok psi bnd K T docs docLens prior x p word topics true HK HD HC HP) as [[[word' topics'] log] E].
    exists word', topics', log. eexists. split; [exact E|].
    apply (var_bound_is psi gammaln K T docs prior (fun _ => x) a docLens (WNum x) topics' word' HK).
    + intros d Hd. destruct HC as [_ L]. destruct (L d Hd). lra.
    + right. eexists. split; reflexivity.
Qed.
Definition docs0 : list words := real_corpus nd0.
Definition lens0 : vec := fun d => if d =? 0 then 3%R else 1%R.
Lemma corpus0 : corpus 2 docs0 lens0.
Proof.
  split.
  - unfold docs0, nd0, real_corpus. cbn [map fst snd]. repeat constructor; cbn; try lia; try lra; try (intros [H|[]]; discriminate); intros [].
  - intros [|[|d]] Hd; [| |cbn in Hd; lia]; unfold tokens, docs0, nd0, lens0; cbn; split; lra.
Qed.
Definition p0 : plan := mkPlan 5 1 1%R 1%R 1%R 1%R RBatch.
(** Priors that are numpy numbers train the model, but have no bound. *)
Theorem C192_trainable_has_bound_refuted : exists K T docs docLens prior wp p word topics,
  0 < K /\ corpus T docs docLens /\ (forall k, k < K -> (0 < prior k)%R) /\ (exists x, wp = WNumpy x /\ (0 < x)%R) /\
  (forall k t, (0 < word k t)%R) /\ (forall d k, (0 < topics d k)%R) /\
  forall psi gammaln bnd a, exists word' topics' log,
    train_any psi bnd K T docs docLens prior wp p word topics true = Ok (word', topics', log) /\
    var_bound_py psi gammaln K T a docs docLens prior wp word' topics' = Raise IndexError.
Proof.
  exists 2, 2, docs0, lens0, (fun _ => 0.1%R), (WNumpy 0.1%R), p0, (fun _ _ => 1%R), (fun _ _ => 1%R).
  split; [lia|]. split; [exact corpus0|]. split; [intros; lra|]. split; [eexists; split; [reflexivity|lra]|]. split; [intros; lra|]. split; [intros; lra|].
  intros psi gammaln bnd a.
  destruct (train_batch_ok psi bnd 2 2 docs0 lens0 (fun _ => 0.1%R) 0.1%R p0 (fun _ _ => 1%R) (fun _ _ => 1%R) true ltac:(lia) ltac:(cbn; lia) corpus0 eq_refl) as [[[w t] l] E].
  exists w, t, l. split; [exact E|reflexivity].
Qed.
Example C192_ex psi gammaln bnd a : usable psi gammaln bnd 2 2 a docs0 lens0 (fun _ => 0.1%R) (WNum 0.1%R) p0 (fun _ _ => 1%R) (fun _ _ => 1%R) /\
  ~ usable psi gammaln bnd 2 2 a docs0 lens0 (fun _ => 0.1%R) (WVec (fun _ => 0.1%R)) p0 (fun _ _ => 1%R) (fun _ _ => 1%R).
Proof.
  split.
  - apply C192_usable_iff; [lia|lia|cbn; lia|exact corpus0|reflexivity|reflexivity|eexists; reflexivity].
  - intros H. apply C192_usable_iff in H as [x H]; [discriminate|lia|lia|cbn; lia|exact corpus0|reflexivity|reflexivity].
Qed.

(** ** C193: batch training of lda_vb_python does not lower the bound.  safe_log takes
    probabilities below [a] for [a], which costs at most K times [a] for each word. *)
Theorem C193_training_improves psi gammaln bnd K T a docs docLens prior vp p word topics word' topics' log b b' : log_gamma gammaln psi ->
  0 < K -> 0 < length docs -> (0 < a)%R -> corpus T docs docLens -> p_rate p = RBatch ->
  (forall k, k < K -> (0 < prior k)%R) -> (0 < vp)%R ->
  (forall d k, d < length docs -> k < K -> (0 < topics d k)%R) -> (forall k t, k < K -> t < T -> (0 < word k t)%R) ->
  VbModel.train psi bnd K T docs docLens prior vp p word topics true = Ok (word', topics', log) ->
  var_bound_py psi gammaln K T a docs docLens prior (WNum vp) word topics = Ok b ->
  var_bound_py psi gammaln K T a docs docLens prior (WNum vp) word' topics' = Ok b' ->
  (b <= b' + INR K * a * vsum (length docs) docLens)%R.
Proof.
  intros (G & CX & DV) HK HD Ha HC HP PA PE PT PW E B B'.
  pose proof (log_gamma_convex gammaln G CX psi DV) as CV.
  destruct (train_improves psi bnd K T docs docLens prior vp HK HD HC gammaln CV PA PE p word topics true word' topics' log HP PT PW E) as (L & _ & _).
  assert (NZ : forall d, d < length docs -> (docLens d <> 0)%R) by (intros d Hd; destruct HC as [_ LL]; destruct (LL d Hd); lra).
  rewrite (var_bound_is psi gammaln K T docs prior (fun _ => vp) a docLens (WNum vp) topics word HK NZ) in B by (right; eexists; split; reflexivity).
  rewrite (var_bound_is psi gammaln K T docs prior (fun _ => vp) a docLens (WNum vp) topics' word' HK NZ) in B' by (right; eexists; split; reflexivity).
  injection B as <-. injection B' as <-.
  assert (HX : forall d e, d < length docs -> In e (nth d docs []) -> (0 <= snd e)%R) by (intros d e Hd He; eapply HX'; eassumption).
  pose proof (proj1 (form_slog psi gammaln K T docs prior (fun _ => vp) a topics word (zs psi K T topics word) Ha HX ltac:(intros; apply soft_pos, HK))) as S1.
  pose proof (proj2 (form_slog psi gammaln K T docs prior (fun _ => vp) a topics' word' (zs psi K T topics' word') Ha HX ltac:(intros; apply soft_pos, HK))) as S2.
  rewrite (vsum_ext (length docs) docLens (fun d => tokens (nth d docs []))) by (intros d Hd; destruct HC as [_ LL]; apply (LL d Hd)).
  lra.
Qed.
Example C193_ex bnd : exists word' topics' log b b',
  VbModel.train digamma bnd 2 2 docs0 lens0 (fun _ => 0.1%R) 0.1%R p0 (fun k t => INR (k + t) + 1)%R (fun d k => INR (d + k) + 1)%R true = Ok (word', topics', log) /\
  var_bound_py digamma lnGamma 2 2 (/ 10 ^ 300) docs0 lens0 (fun _ => 0.1%R) (WNum 0.1%R) (fun k t => INR (k + t) + 1)%R (fun d k => INR (d + k) + 1)%R = Ok b /\
  var_bound_py digamma lnGamma 2 2 (/ 10 ^ 300) docs0 lens0 (fun _ => 0.1%R) (WNum 0.1%R) word' topics' = Ok b' /\
  (b <= b' + 8 * / 10 ^ 300)%R.
Proof.
  destruct (train_batch_ok digamma bnd 2 2 docs0 lens0 (fun _ => 0.1%R) 0.1%R p0 (fun k t => INR (k + t) + 1)%R (fun d k => INR (d + k) + 1)%R true
    ltac:(lia) ltac:(cbn; lia) corpus0 eq_refl) as [[[word' topics'] log] E].
  assert (NZ : forall d, d < length docs0 -> (lens0 d <> 0)%R) by (intros d _; unfold lens0; destruct (d =? 0); lra).
  pose proof (var_bound_is digamma lnGamma 2 2 docs0 (fun _ => 0.1%R) (fun _ => 0.1%R) (/ 10 ^ 300)%R lens0 (WNum 0.1%R) (fun d k => INR (d + k) + 1)%R (fun k t => INR (k + t) + 1)%R
    ltac:(lia) NZ ltac:(right; eexists; split; reflexivity)) as B.
  pose proof (var_bound_is digamma lnGamma 2 2 docs0 (fun _ => 0.1%R) (fun _ => 0.1%R) (/ 10 ^ 300)%R lens0 (WNum 0.1%R) topics' word'
    ltac:(lia) NZ ltac:(right; eexists; split; reflexivity)) as B'.
  do 5 eexists. split; [exact E|]. split; [exact B|]. split; [exact B'|].
  assert (P : (0 < / 10 ^ 300)%R) by (apply Rinv_0_lt_compat, pow_lt; lra).
  match type of B with _ = Ok ?x => match type of B' with _ = Ok ?y =>
    pose proof (C193_training_improves digamma lnGamma bnd 2 2 (/ 10 ^ 300)%R docs0 lens0 (fun _ => 0.1%R) 0.1%R p0 (fun k t => INR (k + t) + 1)%R (fun d k => INR (d + k) + 1)%R
      word' topics' log x y lnGamma_log_gamma ltac:(lia) ltac:(cbn; lia) P corpus0 eq_refl ltac:(intros; lra) ltac:(lra)) as H end end.
  eapply Rle_trans; [apply H; [| |exact E|exact B|exact B']|].
  - intros d k _ _. pose proof (pos_INR (d + k)). lra.
  - intros k t _ _. pose proof (pos_INR (k + t)). lra.
  - apply Rplus_le_compat_l. change (length docs0) with 2. rewrite vsum2. unfold lens0. cbn [Nat.eqb INR]. lra.
Qed.

(** ** C194: the figures of lda_cvb and lda_cvb0.  The counts are those of the
    distributions of the tokens, as training leaves them. *)
Definition matching (D K T : nat) (W : nat -> nat -> nat) (lens : nat -> nat) (z : nat -> nat -> vec) (n_dk n_kt : mat) (n_k : vec) : Prop :=
  (forall d k, d < D -> k < K -> n_dk d k = vsum (lens d) (fun n => z d n k)) /\
  (forall k t, k < K -> t < T -> n_kt k t = vsum D (fun d => vsum (lens d) (fun n => if W d n =? t then z d n k else 0%R))) /\
  (forall k, k < K -> n_k k = vsum T (n_kt k)).
(** The figure is below the bound that the distributions make, and below the log
    evidence; it would still be with the entropy added instead of subtracted. *)
Theorem C194_below_evidence gammaln psi D K T prior b W lens z n_dk n_kt n_k : log_gamma gammaln psi ->
  (forall k, k < K -> (0 < prior k)%R) -> (0 < b)%R -> (forall d n, d < D -> n < lens d -> W d n < T) ->
  (forall d n, d < D -> n < lens d -> proper K (z d n) /\ forall k, k < K -> (0 < z d n k)%R) -> matching D K T W lens z n_dk n_kt n_k ->
  let x := var_bound_cvb gammaln K T D lens prior b n_dk n_kt n_k z in
  let h := vsum D (fun d => vsum (lens d) (fun n => entropy K (z d n))) in
  let lb := lower_bound gammaln D K T prior (fun _ => b) (positions D W lens) (at_positions D z lens) in
  (0 <= h /\ x + 2 * h <= lb /\ lb <= ln (evidence gammaln D K T prior (fun _ => b) (positions D W lens)))%R.
Proof.
  intros (G & CX & DV) PA PB HW HZ (HN & HM & HS) x h lb. pose proof (log_gamma_convex gammaln G CX psi DV) as CV. split; [|split].
  - apply vsum_nonneg. intros d Hd. apply vsum_nonneg. intros n Hn. destruct (HZ d n Hd Hn). apply entropy_nonneg; assumption.
  - unfold h. rewrite <- (pos_ents D lens z K). eapply cvb_below; try eassumption. intros; apply HZ; assumption.
  - apply lower_bound_le; [apply pos_len|]. apply (pos_proper D W). intros; apply HZ; assumption.
Qed.
Definition zq (x : R) : nat -> nat -> vec := fun _ _ k => if k =? 0 then x else (1 - x)%R.
Lemma matching_zq x : matching 1 2 1 (fun _ _ => 0) (fun _ => 1) (zq x) (fun _ k => zq x 0 0 k) (fun k _ => zq x 0 0 k) (fun k => zq x 0 0 k).
Proof.
  split; [|split].
  - intros d k _ _. rewrite vsum1. reflexivity.
  - intros k [|t] _ Ht; [|lia]. rewrite !vsum1. reflexivity.
  - intros k _. rewrite vsum1. reflexivity.
Qed.
Lemma zq_proper x : (0 < x < 1)%R -> forall d n, proper 2 (zq x d n) /\ forall k, k < 2 -> (0 < zq x d n k)%R.
Proof.
  intros Hx d n. split; [split|]; [intros k _|rewrite vsum2|intros k _]; unfold zq; cbn [Nat.eqb]; try destruct (k =? 0); lra.
Qed.
(** But it is larger for distributions that make a worse bound. *)
Theorem C194_figure_orders_bounds_refuted gammaln psi : log_gamma gammaln psi ->
  exists D K T prior b W lens z n_dk n_kt n_k z' n_dk' n_kt' n_k',
    (forall k, k < K -> (0 < prior k)%R) /\ (0 < b)%R /\ (forall d n, d < D -> n < lens d -> W d n < T) /\
    (forall d n, proper K (z d n) /\ forall k, k < K -> (0 < z d n k)%R) /\ matching D K T W lens z n_dk n_kt n_k /\
    (forall d n, proper K (z' d n) /\ forall k, k < K -> (0 < z' d n k)%R) /\ matching D K T W lens z' n_dk' n_kt' n_k' /\
    (var_bound_cvb gammaln K T D lens prior b n_dk n_kt n_k z < var_bound_cvb gammaln K T D lens prior b n_dk' n_kt' n_k' z')%R /\
    (lower_bound gammaln D K T prior (fun _ => b) (positions D W lens) (at_positions D z' lens) <
     lower_bound gammaln D K T prior (fun _ => b) (positions D W lens) (at_positions D z lens))%R.
Proof.
  intros (G & CX & _). exists 1, 2, 1, (fun _ => 1%R), 1%R, (fun _ _ => 0), (fun _ => 1), (zq (1 / 2)), (fun _ k => zq (1 / 2) 0 0 k), (fun k _ => zq (1 / 2) 0 0 k), (fun k => zq (1 / 2) 0 0 k),
    (zq (3 / 4)), (fun _ k => zq (3 / 4) 0 0 k), (fun k _ => zq (3 / 4) 0 0 k), (fun k => zq (3 / 4) 0 0 k).
  split; [intros; lra|]. split; [lra|]. split; [intros; lia|]. split; [apply zq_proper; lra|]. split; [apply matching_zq|]. split; [apply zq_proper; lra|]. split; [apply matching_zq|].
  assert (H : (entropy 2 (zq (3 / 4) 0 0) < entropy 2 (zq (1 / 2) 0 0))%R).
  { unfold entropy. rewrite !vsum2. unfold zq. cbn [Nat.eqb].
    replace (1 - 3 / 4)%R with (/ 4)%R by field. replace (1 - 1 / 2)%R with (/ 2)%R by field. replace (1 / 2)%R with (/ 2)%R by field.
    unfold Rdiv at 2. rewrite ln_mult by lra. rewrite !ln_Rinv by lra.
    assert (L4 : ln 4 = (2 * ln 2)%R) by (replace 4%R with (2 * 2)%R by ring; rewrite ln_mult by lra; ring).
    assert (L16 : (4 * ln 2 < 3 * ln 3)%R).
    { replace (4 * ln 2)%R with (ln 16); [replace (3 * ln 3)%R with (ln 27); [apply ln_increasing; lra|]|].
      - replace 27%R with (3 * (3 * 3))%R by ring. rewrite !ln_mult by lra. ring.
      - replace 16%R with (2 * (2 * (2 * 2)))%R by ring. rewrite !ln_mult by lra. ring. }
    lra. }
  split.
  - unfold var_bound_cvb. rewrite !jagged_is, !vsum1, !vsum2, !vsum1. set (h1 := entropy 2 (zq (1 / 2) 0 0)) in *. set (h2 := entropy 2 (zq (3 / 4) 0 0)) in *. clearbody h1 h2. unfold zq. cbn [Nat.eqb].
    pose proof (CX (1 + 3 / 4)%R (1 + (1 - 3 / 4))%R (1 / 2)%R ltac:(lra) ltac:(lra) ltac:(lra)) as C.
    replace ((1 - 1 / 2) * (1 + 3 / 4) + 1 / 2 * (1 + (1 - 3 / 4)))%R with (1 + 1 / 2)%R in C by field.
    replace (1 + (1 - 1 / 2))%R with (1 + 1 / 2)%R by field. cbn [INR]. rewrite !Rmult_1_l. replace (1 + (1 - 1 / 2))%R with (1 + 1 / 2)%R by field. lra.
  - assert (L : forall x, (0 < x < 1)%R -> lower_bound gammaln 1 2 1 (fun _ => 1%R) (fun _ => 1%R) (positions 1 (fun _ _ => 0) (fun _ => 1)) (at_positions 1 (zq x) (fun _ => 1)) =
      (joint gammaln 1 2 1 (fun _ => 1) (fun _ => 1) [(O, O)] [O] + entropy 2 (zq x 0 0))%R).
    { intros x _. unfold lower_bound, positions, at_positions. cbn [seq flat_map map app Ex]. unfold ents. cbn [map rsum]. rewrite vsum2.
      assert (J : joint gammaln 1 2 1 (fun _ => 1%R) (fun _ => 1%R) [(0, 0)] [1] = joint gammaln 1 2 1 (fun _ => 1%R) (fun _ => 1%R) [(0, 0)] [0]).
      { unfold joint, lnB, n_doc, n_word. rewrite ?vsum1, ?vsum2, ?vsum1, ?vsum2. cbn. rewrite ?Rplus_0_r.
        replace (1 + (1 + 1))%R with (1 + 1 + 1)%R by ring. ring. }
      rewrite J. unfold zq at 1 2. cbn [Nat.eqb]. ring. }
    rewrite !L by lra. lra.
Qed.
Example C194_ex : let x := var_bound_cvb lnGamma 2 1 1 (fun _ => 1) (fun _ => 0.1%R) 0.1%R (fun _ k => zq (3 / 4) 0 0 k) (fun k _ => zq (3 / 4) 0 0 k) (fun k => zq (3 / 4) 0 0 k) (zq (3 / 4)) in
  (x <= ln (evidence lnGamma 1 2 1 (fun _ => 0.1) (fun _ => 0.1) [(0%nat, 0%nat)]))%R.
Proof.
  intros x. destruct (C194_below_evidence lnGamma digamma 1 2 1 (fun _ => 0.1%R) 0.1%R (fun _ _ => 0) (fun _ => 1) (zq (3 / 4)) _ _ _ lnGamma_log_gamma
    ltac:(intros; lra) ltac:(lra) ltac:(intros; apply Nat.lt_0_1) ltac:(intros; apply zq_proper; lra) (matching_zq (3 / 4))) as (H & L & E).
  change (positions 1 (fun _ _ => 0) (fun _ => 1)) with [(0, 0)] in *. fold x in L. lra.
Qed.

(** ** C195: the bound of lda_vb is below the log evidence, whatever was in the memory
    that it uses (compare C152), and is never positive. *)
Theorem C195_below_evidence gammaln psi D K T prior b W lens maxN s z : log_gamma gammaln psi -> 0 < K -> 0 < T ->
  (forall k, k < K -> (0 < prior k)%R) -> (0 < b)%R -> (forall d n, d < D -> n < lens d -> W d n < T) -> (forall d, d < D -> lens d <= maxN) ->
  (forall d k, d < D -> k < K -> (0 < v_topics s d k)%R) -> (forall k t, k < K -> t < T -> (0 < v_vocab s k t)%R) ->
  (var_bound_fast psi gammaln K T D W lens prior b maxN s z <= ln (evidence gammaln D K T prior (fun _ => b) (positions D W lens)))%R /\
  (var_bound_fast psi gammaln K T D W lens prior b maxN s z <= 0)%R.
Proof.
  intros (G & CX & DV) HK HT PA PB HW HL PG PV.
  destruct (fast_below gammaln psi G CX DV D K T prior b HK HT PA PB W lens HW maxN s z HL PG PV) as (q & PQ & L).
  assert (B : (var_bound_fast psi gammaln K T D W lens prior b maxN s z <= ln (evidence gammaln D K T prior (fun _ => b) (positions D W lens)))%R).
  { eapply Rle_trans; [exact L|]. apply lower_bound_le; [apply pos_len|]. apply (pos_proper D W), PQ. }
  split; [exact B|]. eapply Rle_trans; [exact B|]. rewrite <- ln_1.
  assert (E : (evidence gammaln D K T prior (fun _ => b) (positions D W lens) <= 1)%R).
  { apply evidence_le_1; try assumption; [intros; exact PB|]. apply Forall_forall. intros e He. apply (positions_in D W lens T e HW He). }
  destruct E as [E|E]; [left; apply ln_increasing; [apply evidence_pos, HK|exact E]|right; rewrite E; reflexivity].
Qed.
Example C195_ex z : (var_bound_fast digamma lnGamma 2 2 2 (fun d n => d) (fun d => S d) (fun _ => 0.1%R) 0.1%R 2
    (mkV (fun d k => INR (d + k) + 1)%R (fun k t => INR (k + t) + 1)%R (fun _ _ => 0%R)) z <=
  ln (evidence lnGamma 2 2 2 (fun _ => 0.1) (fun _ => 0.1) [(0%nat, 0%nat); (1%nat, 1%nat); (1%nat, 1%nat)]))%R.
Proof.
  apply (C195_below_evidence lnGamma digamma 2 2 2 (fun _ => 0.1%R) 0.1%R (fun d n => d) (fun d => S d) 2); try lia; try lra; try exact lnGamma_log_gamma; cbn [v_topics v_vocab]; try (intros; lra); try (intros; lia).
  - intros d k _ _. pose proof (pos_INR (d + k)). lra.
  - intros k t _ _. pose proof (pos_INR (k + t)). lra.
Qed.

Print Assumptions C191_evidence_distribution.
Print Assumptions C191_below_evidence.
Print Assumptions C192_usable_iff.
Print Assumptions C192_trainable_has_bound_refuted.
Print Assumptions C193_training_improves.
Print Assumptions C194_below_evidence.
Print Assumptions C194_figure_orders_bounds_refuted.
Print Assumptions C195_below_evidence.
