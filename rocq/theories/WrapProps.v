(** * C238-C241: wrappers of topic models of scikit-learn and gensim *)
From Coq Require Import List ZArith Reals Arith Bool String Lra Lia.
From Verif Require Import Base RealModel RealProofs VbModel VbProofs SkModel EstModel WrapModel.
From Verif Require SkScore.
Import ListNotations.
Open Scope nat_scope.

(** ** C238: scores *)

(** The likelihood of documents: the product of the probabilities of their words, each
    the mixture of the topics' probabilities for the word. *)
Fixpoint product (n : nat) (f : nat -> R) : R := match n with 0 => 1%R | S n => (product n f * f n)%R end.
Definition mixture (K : nat) (theta : nat -> R) (phi : nat -> nat -> R) (t : nat) : R := vsum K (fun k => theta k * phi k t)%R.
Definition likelihood (D T K : nat) (W theta phi : nat -> nat -> R) : R :=
  product D (fun d => product T (fun t => Rpower (mixture K (theta d) phi t) (W d t))).
(** The topics' probabilities of words, up to a factor. *)
Definition in_proportion (T K : nat) (c phi : nat -> nat -> R) : Prop :=
  forall k, k < K -> vsum T (phi k) = 1%R /\ exists a, forall t, t < T -> c k t = (a * phi k t)%R.

Lemma product_pos n f : (forall i, i < n -> (0 < f i)%R) -> (0 < product n f)%R.
Proof.
  induction n as [|n IH]; intros H; cbn [product]; [lra|]. apply Rmult_lt_0_compat; [apply IH; intros i Hi; apply H; lia|apply H; lia].
Qed.
Lemma vsum_S n v : vsum (S n) v = (vsum n v + v n)%R.
Proof.
  unfold vsum. rewrite seq_S, map_app. cbn [map Nat.add]. induction (map v (seq 0 n)) as [|y l IH]; cbn [app].
  - change (rsum [v n]) with (v n + 0)%R. change (rsum []) with 0%R. ring.
  - change (rsum (y :: (l ++ [v n])%list)) with (y + rsum (l ++ [v n])%list)%R. rewrite IH. change (rsum (y :: l)) with (y + rsum l)%R. ring.
Qed.
Lemma ln_product n f : (forall i, i < n -> (0 < f i)%R) -> ln (product n f) = vsum n (fun i => ln (f i)).
Proof.
  induction n as [|n IH]; intros H; cbn [product]; [rewrite ln_1; reflexivity|].
  rewrite ln_mult by (try apply product_pos; intros; apply H; lia). rewrite IH by (intros i Hi; apply H; lia). rewrite vsum_S. reflexivity.
Qed.

Section Scores.
  Context (T K : nat) (cast : dtype -> R -> R) (tiny : dtype -> R).
  Context (cast_F64 : forall r, cast F64 r = r) (tiny_pos : forall t, (0 < tiny t)%R).
  Context {Qs : Type} (infer : corpus -> res matrix) (split : corpus -> res (corpus * corpus)).
  Notation score := (score T K cast tiny infer split).
  (** What a corpus of doubles, topics of documents and a model of either library are. *)
  Record fine (w : wrapper) (x : corpus) (y c : matrix) (phi : nat -> nat -> R) : Prop := {
    f_type : c_type x = F64;
    f_types : w = ScikitLda -> m_type y = F64 /\ m_type c = F64;
    f_counts : forall d t, d < c_docs x -> t < T -> (0 <= c_words x d t)%R;
    f_topics : forall d, d < c_docs x -> (forall k, k < K -> (0 <= entries y d k)%R) /\ vsum K (entries y d) = 1%R;
    f_words : forall k t, k < K -> t < T -> (0 <= phi k t)%R;
    f_pos : forall k, k < K -> (0 < vsum T (entries c k))%R;
    f_prop : in_proportion T K (entries c) phi;
    (* doubles have room for the probability of every word that occurs *)
    f_room : forall d t, d < c_docs x -> t < T -> c_words x d t <> 0%R -> (tiny F64 < mixture K (entries y d) phi t)%R }.

  Lemma dists w x y c phi : fine w x y c phi -> forall k t, k < K -> t < T -> (entries c k t / vsum T (entries c k))%R = phi k t.
  Proof.
    intros F k t Hk Ht. destruct (f_prop _ _ _ _ _ F k Hk) as (S & a & A).
    assert (E : vsum T (entries c k) = a).
    { rewrite (vsum_ext T _ (fun t => (a * phi k t)%R)) by (intros i Hi; apply A; exact Hi). rewrite vsum_scale, S. ring. }
    pose proof (f_pos _ _ _ _ _ F k Hk) as P. rewrite E in *. rewrite (A t Ht). field. lra.
  Qed.
  Lemma mixture_pos w x y c phi d t : fine w x y c phi -> d < c_docs x -> t < T -> c_words x d t <> 0%R -> (0 < mixture K (entries y d) phi t)%R.
  Proof. intros F Hd Ht N. pose proof (f_room _ _ _ _ _ F d t Hd Ht N). specialize (tiny_pos F64). lra. Qed.
  Lemma word_le_one phi k t : (forall k t, k < K -> t < T -> (0 <= phi k t)%R) -> vsum T (phi k) = 1%R -> k < K -> t < T -> (phi k t <= 1)%R.
  Proof. intros P S Hk Ht. rewrite <- S. apply (vsum_in_le T (phi k) t); [intros j Hj; apply P; assumption|exact Ht]. Qed.
  Lemma mixture_le_one w x y c phi d t : fine w x y c phi -> d < c_docs x -> t < T -> (mixture K (entries y d) phi t <= 1)%R.
  Proof.
    intros F Hd Ht. destruct (f_topics _ _ _ _ _ F d Hd) as (P & S). unfold mixture. rewrite <- S. apply vsum_le. intros k Hk.
    assert (L : (phi k t <= 1)%R) by (apply word_le_one; try assumption; [apply (f_words _ _ _ _ _ F)|apply (f_prop _ _ _ _ _ F k Hk)]).
    pose proof (P k Hk). pose proof (f_words _ _ _ _ _ F k t Hk Ht). nra.
  Qed.
  Lemma safe_is_ln p : (tiny F64 < p)%R -> safe tiny F64 p = ln p.
  Proof. intros H. unfold safe. destruct (rltb (tiny F64) p) eqn:E; [reflexivity|]. apply rltb_false in E. lra. Qed.
  Lemma log_prob_fine w x y c phi : fine w x y c phi -> forall y' c', m_type y' = F64 -> m_type c' = F64 ->
    (forall d k, entries y' d k = entries y d k) -> (forall k t, entries c' k t = (entries c k t / vsum T (entries c k))%R) ->
    log_prob T K tiny x y' c' = Ok (ln (likelihood (c_docs x) T K (c_words x) (entries y) phi)).
  Proof.
    intros F y' c' Ty Tc Ey Ec. unfold log_prob. rewrite Ty, Tc, (f_type _ _ _ _ _ F). cbn [dtype_eqb andb]. f_equal.
    unfold likelihood. rewrite ln_product by (intros d Hd; apply product_pos; intros t Ht; apply exp_pos).
    apply vsum_ext. intros d Hd. rewrite ln_product by (intros t Ht; apply exp_pos). apply vsum_ext. intros t Ht.
    unfold Rpower. rewrite ln_exp. destruct (Req_dec (c_words x d t) 0) as [->|NW]; [ring|]. f_equal.
    assert (M : vsum K (fun k => entries y' d k * entries c' k t)%R = mixture K (entries y d) phi t).
    { unfold mixture. apply vsum_ext. intros k Hk. rewrite Ey, Ec. f_equal. apply (dists w x y c phi F k t Hk Ht). }
    rewrite M. apply safe_is_ln, (f_room _ _ _ _ _ F d t Hd Ht NW).
  Qed.
  Lemma dtype_eqb_true a b : dtype_eqb a b = true -> a = b.
  Proof. destruct a, b; intros H; try discriminate H; reflexivity. Qed.
  Lemma astype_type t m : m_type (astype cast t m) = t.
  Proof. unfold astype. destruct (dtype_eqb (m_type m) t) eqn:E; [apply dtype_eqb_true, E|reflexivity]. Qed.
  Lemma astype_F64 m i j : entries (astype cast F64 m) i j = entries m i j.
  Proof. unfold astype. destruct (dtype_eqb (m_type m) F64); [reflexivity|]. cbn [entries]. apply cast_F64. Qed.

  (** Topics given: the logarithm of the likelihood of the documents, or their perplexity. *)
  Theorem C238_given w x y c phi m f on : fine w x y c phi -> SkScore.described m = (SkScore.AtPoint, f, on) ->
    score c w x (Some y) (@None Qs) m =
    Ok (let ll := ln (likelihood (c_docs x) T K (c_words x) (entries y) phi) in
        match f with SkScore.LogLike => ll | SkScore.Perplexity => exp (- ll / vsum (c_docs x) (fun d => vsum T (c_words x d))) end).
  Proof.
    intros F D. unfold WrapModel.score.
    assert (N : negb (is_point_estimate m) = false) by (destruct m; try discriminate D; reflexivity). rewrite N. cbn [bind].
    assert (L : log_prob T K tiny x (match w with ScikitLda => y | ScikitHdp => astype cast (c_type x) y end)
                  (match w with ScikitLda => component_dists T c | ScikitHdp => astype cast (c_type x) (component_dists T c) end) =
                Ok (ln (likelihood (c_docs x) T K (c_words x) (entries y) phi))).
    { apply (log_prob_fine w x y c phi F); destruct w; rewrite ?(f_type _ _ _ _ _ F), ?astype_type; try reflexivity;
        try (apply (f_types _ _ _ _ _ F); reflexivity); intros; rewrite ?astype_F64; reflexivity. }
    destruct w; rewrite L; cbn [bind]; destruct m; try discriminate D; injection D as <- <-; reflexivity.
  Qed.
  (** Nothing given: topics are inferred from the documents, or from the first half of
      each to score the second. *)
  Theorem C238_inferred w x c y m f : SkScore.described m = (SkScore.AtPoint, f, SkScore.WholeDocs) -> infer x = Ok y ->
    score c w x None (@None Qs) m = score c w x (Some y) (@None Qs) m.
  Proof. intros D I. unfold WrapModel.score. destruct m; try discriminate D; cbn [is_point_estimate is_doc_completion negb]; rewrite I; reflexivity. Qed.
  Theorem C238_completion w x x1 x2 c y m f : SkScore.described m = (SkScore.AtPoint, f, SkScore.HeldOutHalf) ->
    split x = Ok (x1, x2) -> infer x1 = Ok y -> score c w x None (@None Qs) m = score c w x2 (Some y) (@None Qs) m.
  Proof. intros D S I. unfold WrapModel.score. destruct m; try discriminate D; cbn [is_point_estimate is_doc_completion negb]; rewrite S; cbn [bind]; rewrite I; reflexivity. Qed.
  (** Likelihoods are not positive and perplexities at least one. *)
  Theorem C238_bounds w x y c phi : fine w x y c phi -> (0 < vsum (c_docs x) (fun d => vsum T (c_words x d)))%R ->
    exists ll p, score c w x (Some y) (@None Qs) LLPoint = Ok ll /\ score c w x (Some y) (@None Qs) PerpPoint = Ok p /\ (ll <= 0 /\ 1 <= p)%R.
  Proof.
    intros F N. rewrite (C238_given w x y c phi LLPoint _ _ F eq_refl), (C238_given w x y c phi PerpPoint _ _ F eq_refl).
    eexists. eexists. split; [reflexivity|]. split; [reflexivity|]. cbv zeta.
    assert (L : (ln (likelihood (c_docs x) T K (c_words x) (entries y) phi) <= 0)%R).
    { unfold likelihood. rewrite ln_product by (intros d Hd; apply product_pos; intros t Ht; apply exp_pos).
      replace 0%R with (vsum (c_docs x) (fun _ => 0%R)) by (rewrite vsum_const; ring). apply vsum_le. intros d Hd.
      rewrite ln_product by (intros t Ht; apply exp_pos). replace 0%R with (vsum T (fun _ => 0%R)) by (rewrite vsum_const; ring).
      apply vsum_le. intros t Ht. unfold Rpower. rewrite ln_exp.
      destruct (Req_dec (c_words x d t) 0) as [->|NW]; [lra|].
      pose proof (f_counts _ _ _ _ _ F d t Hd Ht). pose proof (mixture_pos w x y c phi d t F Hd Ht NW) as P.
      pose proof (mixture_le_one w x y c phi d t F Hd Ht) as L1.
      assert (ln (mixture K (entries y d) phi t) <= 0)%R.
      { destruct L1 as [L1|L1]; [|rewrite L1, ln_1; lra]. rewrite <- ln_1. left. apply ln_increasing; assumption. }
      nra. }
    split; [exact L|]. set (ll := ln _) in *. set (n := vsum (c_docs x) _) in *.
    assert (0 <= - ll / n)%R by (apply Rmult_le_pos; [lra|left; apply Rinv_0_lt_compat; exact N]).
    pose proof (exp_ineq1_le (- ll / n)%R). lra.
  Qed.
  (** Without room, a word counts with the smallest number that has a logarithm. *)
  Theorem C238_floor w x y c m : c_type x = F64 -> m_type y = F64 -> m_type c = F64 -> m = LLPoint \/ m = DocLLPoint ->
    score c w x (Some y) (@None Qs) m =
    Ok (vsum (c_docs x) (fun d => vsum T (fun t => c_words x d t * ln (Rmax (tiny F64) (vsum K (fun k => entries y d k * (entries c k t / vsum T (entries c k)))))))%R).
  Proof.
    intros Tx Ty Tc Hm.
    assert (S : forall p, safe tiny F64 p = ln (Rmax (tiny F64) p)).
    { intros p. unfold safe. destruct (rltb (tiny F64) p) eqn:E; [apply rltb_true in E; rewrite Rmax_right by lra|apply rltb_false in E; rewrite Rmax_left by lra]; reflexivity. }
    unfold WrapModel.score. destruct Hm as [->| ->]; cbn [is_point_estimate is_doc_completion is_perplexity negb bind]; destruct w; cbn [bind]; unfold log_prob, astype, component_dists; cbn [m_type entries];
      rewrite !Tx; rewrite ?Ty, ?Tc; cbn [dtype_eqb andb m_type entries bind]; rewrite ?Ty, ?Tc; cbn [dtype_eqb andb bind]; f_equal; apply vsum_ext; intros d _; apply vsum_ext; intros t _; rewrite S; reflexivity.
  Qed.
  (** A model that knows nothing has the size of the vocabulary as its perplexity. *)
  Theorem C238_uniform w x y c phi : fine w x y c phi -> (0 < vsum (c_docs x) (fun d => vsum T (c_words x d)))%R -> 0 < T ->
    (forall k t, k < K -> t < T -> phi k t = (1 / INR T)%R) -> score c w x (Some y) (@None Qs) PerpPoint = Ok (INR T).
  Proof.
    intros F N HT U. rewrite (C238_given w x y c phi PerpPoint _ _ F eq_refl). f_equal. cbv zeta.
    assert (PT : (0 < INR T)%R) by (apply lt_0_INR; lia).
    assert (L : ln (likelihood (c_docs x) T K (c_words x) (entries y) phi) = (- ln (INR T) * vsum (c_docs x) (fun d => vsum T (c_words x d)))%R).
    { unfold likelihood. rewrite ln_product by (intros d Hd; apply product_pos; intros t Ht; apply exp_pos).
      rewrite <- vsum_scale. apply vsum_ext. intros d Hd.
      rewrite ln_product by (intros t Ht; apply exp_pos). rewrite <- vsum_scale. apply vsum_ext. intros t Ht.
      unfold Rpower. rewrite ln_exp.
      assert (M : mixture K (entries y d) phi t = (/ INR T)%R).
      { unfold mixture. rewrite (vsum_ext K _ (fun k => (entries y d k * (1 / INR T))%R)) by (intros k Hk; rewrite U by assumption; reflexivity).
        rewrite vsum_scale_r. rewrite (proj2 (f_topics _ _ _ _ _ F d Hd)). field. lra. }
      rewrite M, ln_Rinv by exact PT. ring. }
    rewrite L. set (n := vsum (c_docs x) _) in *. replace (- (- ln (INR T) * n) / n)%R with (ln (INR T)) by (field; lra). apply exp_ln, PT.
  Qed.

  (** ** C239: number types *)
  Theorem C239_lda_needs_doubles_refuted x y c m (v : R) : m_type y = F64 -> m_type c = F64 -> c_type x <> F64 ->
    score c ScikitLda x (Some y) (@None Qs) m <> Ok v.
  Proof.
    intros Ty Tc Tx. unfold WrapModel.score. destruct (negb _); [discriminate|]. cbn [bind]. unfold log_prob. rewrite Ty. cbn [component_dists m_type].
    destruct (c_type x); try congruence; cbn [dtype_eqb andb bind]; discriminate.
  Qed.
  Theorem C239_hdp_needs_reals_refuted x y c m (v : R) : c_type x = I32 \/ c_type x = I64 -> score c ScikitHdp x (Some y) (@None Qs) m <> Ok v.
  Proof.
    intros H. unfold WrapModel.score. destruct (negb _); [discriminate|]. cbn [bind]. unfold log_prob. rewrite !astype_type.
    destruct H as [-> | ->]; cbn [dtype_eqb andb bind]; discriminate.
  Qed.
  (** All other types are taken. *)
  Theorem C239_accepted w x y c m : is_point_estimate m = true ->
    (match w with ScikitLda => c_type x = F64 /\ m_type y = F64 /\ m_type c = F64 | ScikitHdp => c_type x = F32 \/ c_type x = F64 end) ->
    exists v, score c w x (Some y) (@None Qs) m = Ok v.
  Proof.
    intros P H. unfold WrapModel.score. rewrite P. cbn [negb bind]. destruct w.
    - destruct H as (Hx & Hy & Hc). unfold log_prob. cbn [component_dists m_type]. rewrite Hx, Hy, Hc. cbn [dtype_eqb andb bind]. eexists. reflexivity.
    - unfold log_prob. rewrite !astype_type. destruct H as [-> | ->]; cbn [dtype_eqb andb bind]; eexists; reflexivity.
  Qed.

  (** ** C240: what the wrappers do not have *)
  Theorem C240_expected_refuted w x y (q : option Qs) c m : fst (fst (SkScore.described m)) = SkScore.Expected -> score c w x y q m = Raise OtherError.
  Proof. intros D. unfold WrapModel.score. destruct m; try discriminate D; reflexivity. Qed.
  Theorem C240_query_state_refuted w x y (q : Qs) c m (v : R) : score c w x y (Some q) m <> Ok v.
  Proof. unfold WrapModel.score. destruct (negb _); [discriminate|]. destruct y; discriminate. Qed.
End Scores.

(** Online training cannot be asked for, except of gensim's model. *)
Theorem C240_online_refuted b : b <> 0%Z -> construct_wrapper ScikitLda b = Raise TypeError.
Proof. intros N. unfold construct_wrapper, lda_arguments. destruct (Z.eqb_spec b 0); [contradiction|]. reflexivity. Qed.
Theorem C240_batch w b : b = 0%Z \/ w = ScikitHdp -> construct_wrapper w b = Ok tt.
Proof. intros [-> | ->]; [destruct w; reflexivity|reflexivity]. Qed.

(** ** C241: fit and resume *)
Section Fit.
  Context {X L G : Type} (init : X -> G -> L * G) (pass_ : X -> L * G -> L * G).
  Notation fit := (fit init pass_).
  Notation passes := (passes pass_).
  Notation lda := (lda L G).

  Lemma passes_add x : forall n m s, passes (n + m) x s = passes m x (passes n x s).
  Proof. induction n as [|n IH]; intros m s; [reflexivity|]. cbn [Nat.add WrapModel.passes]. apply IH. Qed.
  Lemma fit_fresh kw x s : skip_init s = false -> fit false kw x s =
    (let '(l, g) := passes (max_iter s) x (init x (gen s)) in (mkLda (Some l) g (max_iter s) false, Ok tt)).
  Proof.
    intros K. unfold WrapModel.fit, lib_fit, init_latent. rewrite K. destruct (init x (gen s)) as [l g]. cbn [latent gen max_iter skip_init].
    destruct (passes _ _ _) as [l' g']. reflexivity.
  Qed.
  Lemma fit_resumed kw x s l : latent s = Some l -> fit true kw x s =
    (let '(l, g) := passes (max_iter s) x (l, gen s) in (mkLda (Some l) g (max_iter s) false, Ok tt)).
  Proof.
    intros E. unfold WrapModel.fit, lib_fit, init_latent. cbn [skip_init latent gen max_iter]. rewrite E.
    destruct (passes _ _ _) as [l' g']. reflexivity.
  Qed.
  (** Fitting with n passes and going on with m is fitting with both. *)
  Theorem C241_resume kw kw' kw'' x n m (s : lda) : skip_init s = false ->
    fst (fit true kw' x (set_max_iter m (fst (fit false kw x (set_max_iter n s))))) =
    set_max_iter m (fst (fit false kw'' x (set_max_iter (n + m) s))).
  Proof.
    intros K. rewrite !fit_fresh by exact K. cbn [set_max_iter max_iter gen]. rewrite passes_add.
    destruct (passes n x _) as [l g]. cbn [fst]. rewrite (fit_resumed kw' x _ l) by reflexivity. cbn [set_max_iter max_iter gen].
    destruct (passes m x _) as [l' g']. reflexivity.
  Qed.
  (** A fit leaves the estimator ready for one from the start, also when it fails; only
      resuming what was never fitted does. *)
  Theorem C241_ready resume kw x (s : lda) : skip_init (fst (fit resume kw x s)) = false.
  Proof. unfold WrapModel.fit. destruct (lib_fit _ _ _ _) as [s' r]. reflexivity. Qed.
  Theorem C241_succeeds resume kw x (s : lda) : skip_init s = false ->
    snd (fit resume kw x s) = (if resume then match latent s with None => Raise AttributeError | Some _ => Ok tt end else Ok tt).
  Proof.
    intros K. destruct resume.
    - destruct (latent s) as [l|] eqn:E; [rewrite (fit_resumed kw x s l E); destruct (passes _ _ _); reflexivity|].
      unfold WrapModel.fit, lib_fit, init_latent. cbn [skip_init latent]. rewrite E. reflexivity.
    - rewrite fit_fresh by exact K. destruct (passes _ _ _); reflexivity.
  Qed.
  (** A fit from the start does not depend on the models before it. *)
  Theorem C241_from_the_start kw x (s s' : lda) : skip_init s = false -> skip_init s' = false -> gen s = gen s' -> max_iter s = max_iter s' ->
    fit false kw x s = fit false kw x s'.
  Proof. intros K K' E M. rewrite !fit_fresh by assumption. rewrite E, M. reflexivity. Qed.
  (** Iterations passed to fit make no difference. *)
  Theorem C241_ignored resume kw kw' x (s : lda) : fit resume kw x s = fit resume kw' x s.
  Proof. reflexivity. Qed.
End Fit.
(** So fit(iterations=90) and fit(iterations=10, resume=True) is not
    fit(iterations=100), but fit of twice the iterations of the constructor. *)
Theorem C241_iterations_refuted : exists (pass_ : unit -> nat * unit -> nat * unit) (s : lda nat unit),
  let fit := fit (fun _ g => (0, g)) pass_ in
  latent (fst (fit true [("iterations", 10%Z)]%string tt (fst (fit false [("iterations", 90%Z)]%string tt s)))) = Some 2000 /\
  latent (fst (fit false [("iterations", 100%Z)]%string tt s)) = Some 1000.
Proof.
  exists (fun _ s => (S (fst s), snd s)), (new_lda tt 1000).
  assert (P : forall n l g, passes (fun (_ : unit) (s : nat * unit) => (S (fst s), snd s)) n tt (l, g) = (n + l, g)).
  { induction n as [|n IH]; intros l g; [reflexivity|]. cbn [passes fst snd]. rewrite IH. f_equal. lia. }
  cbv zeta. split.
  - rewrite fit_fresh by reflexivity. cbn [new_lda max_iter gen]. rewrite P. cbn [fst].
    rewrite (fit_resumed _ _ _ _ _ (1000 + 0)) by reflexivity. cbn [max_iter gen]. rewrite P. cbn [fst latent]. f_equal.
  - rewrite fit_fresh by reflexivity. cbn [new_lda max_iter gen]. rewrite P. cbn [fst latent]. f_equal.
Qed.
(** Fitting an estimator again to the same data gives another model: the generator
    given to the library goes on from where it was. *)
Theorem C241_again_refuted : exists (s : lda nat nat),
  let fit := fit (fun (_ : unit) g => (g, S g)) (fun _ s => s) in
  latent (fst (fit false [] tt s)) = Some 7 /\ latent (fst (fit false [] tt (fst (fit false [] tt s)))) = Some 8.
Proof. exists (new_lda 7 3). split; reflexivity. Qed.

(** ** Cases: two documents, two words and two topics. *)
Example C238_case : let x := mkCorpus F64 2 (fun d t => if Nat.eqb d t then 2%R else 1%R) in
  let y := mkMatrix F64 (fun d k => (1 / 2)%R) in let c := mkMatrix F64 (fun k t => 3%R) in
  fine 2 2 (fun _ => (1 / 100)%R) ScikitLda x y c (fun _ _ => (1 / 2)%R) /\
  (vsum (c_docs x) (fun d => vsum 2 (c_words x d)) = 6)%R.
Proof.
  cbv zeta. assert (E : forall v, vsum 2 v = (v 0%nat + (v 1%nat + 0))%R) by reflexivity.
  split; [|cbn [c_docs c_words]; rewrite !E; cbn [Nat.eqb]; ring].
  split; cbn [c_type c_docs c_words m_type entries].
  - reflexivity.
  - intros _. split; reflexivity.
  - intros d t _ _. destruct (Nat.eqb d t); lra.
  - intros d _. split; [intros k _; lra|rewrite E; lra].
  - intros k t _ _. lra.
  - intros k _. rewrite E. lra.
  - intros k _. split; [rewrite E; lra|]. exists 6%R. intros t _. lra.
  - intros d t _ _. unfold mixture. rewrite E. lra.
Qed.
Example C239_case : c_type (mkCorpus I64 1 (fun _ _ => 1%R)) = I64 /\ F32 <> F64.
Proof. split; [reflexivity|discriminate]. Qed.
Example C240_case : construct_wrapper ScikitLda 100 = Raise TypeError /\ construct_wrapper ScikitHdp 100 = Ok tt.
Proof. split; reflexivity. Qed.
Example C241_case : latent (fst (fit (fun (_ : unit) g => (g, S g)) (fun _ s => (fst s + snd s, S (snd s))) true [] tt
   (fst (fit (fun (_ : unit) g => (g, S g)) (fun _ s => (fst s + snd s, S (snd s))) false [] tt (new_lda 1 2))))) = Some (1 + 2 + 3 + 4 + 5).
Proof. reflexivity. Qed.

Print Assumptions C238_given.
Print Assumptions C238_inferred.
Print Assumptions C238_completion.
Print Assumptions C238_bounds.
Print Assumptions C238_floor.
Print Assumptions C238_uniform.
Print Assumptions C239_lda_needs_doubles_refuted.
Print Assumptions C239_hdp_needs_reals_refuted.
Print Assumptions C239_accepted.
Print Assumptions C240_expected_refuted.
Print Assumptions C240_query_state_refuted.
Print Assumptions C240_online_refuted.
Print Assumptions C240_batch.
Print Assumptions C241_resume.
Print Assumptions C241_ready.
Print Assumptions C241_succeeds.
Print Assumptions C241_from_the_start.
Print Assumptions C241_ignored.
Print Assumptions C241_iterations_refuted.
Print Assumptions C241_again_refuted.
