(** * C226: the bound that mtm3 reports. *)
From Coq Require Import List Reals Arith Bool Lra Lia Psatz.
From Verif Require Import Base RealModel VbModel VbProofs LinkModel LinkProps CtmModel CtmProofs MtmModel BohBoundModel LinkBoundModel.
From Verif Require BoundProofs BohBoundProps.
Import ListNotations.
Open Scope nat_scope.

(** The same number added everywhere. *)
Definition shift (c : R) (m : mat) : mat := fun d k => (m d k + c)%R.
Definition no_links (D : nat) (L : mat) : Prop := forall d l, d < D -> l < D -> L d l = 0%R.

Lemma fold_max_shift c : forall l x, fold_left Rmax (map (fun y => y + c)%R l) (x + c)%R = (fold_left Rmax l x + c)%R.
Proof. induction l as [|y l IH]; intros x; cbn [map fold_left]; [reflexivity|]. rewrite <- IH. f_equal. unfold Rmax. destruct (Rle_dec (x + c) (y + c)), (Rle_dec x y); lra. Qed.
Lemma vmax_shift K v c : 0 < K -> vmax K (fun k => v k + c)%R = (vmax K v + c)%R.
Proof.
  intros H. unfold vmax. rewrite <- (map_map v (fun y => y + c)%R). destruct (map v (seq 0 K)) as [|x l] eqn:E; [destruct K; [lia|discriminate E]|]. cbn [map]. apply fold_max_shift.
Qed.
Lemma exp_means_shift K c m d k : 0 < K -> exp_means K (shift c m) d k = exp_means K m d k.
Proof. intros H. unfold exp_means. change (shift c m d) with (fun j => m d j + c)%R. rewrite (vmax_shift K (m d) c H). unfold shift. f_equal. ring. Qed.
(** Topics of documents do not change. *)
Lemma topics_shift K c m d k : 0 < K -> vsoftmax K (shift c m d) k = vsoftmax K (m d) k.
Proof.
  intros H. change ((exp_means K (shift c m) d k / vsum K (exp_means K (shift c m) d))%R = (exp_means K m d k / vsum K (exp_means K m d))%R).
  rewrite exp_means_shift by exact H. f_equal. apply vsum_ext. intros j _. apply exp_means_shift, H.
Qed.
Lemma square_ext K S x y : (forall k, k < K -> x k = y k) -> square K S x = square K S y.
Proof. intros H. unfold square. apply vsum_ext. intros k L. rewrite (H k L). f_equal. apply vsum_ext. intros j J. rewrite (H j J). reflexivity. Qed.

Lemma mapM_all {A B} (f : A -> res B) b : forall l, (forall x, In x l -> f x = Ok b) -> mapM f l = Ok (map (fun _ => b) l).
Proof. induction l as [|x l IH]; intros H; cbn [mapM map]; [reflexivity|]. rewrite (H x (or_introl eq_refl)), (IH (fun y I => H y (or_intror I))). reflexivity. Qed.
Lemma nth_map_const {A B} (b d : B) : forall (l : list A) i, nth i (map (fun _ => b) l) d = b \/ nth i (map (fun _ => b) l) d = d.
Proof. induction l as [|x l IH]; intros [|i]; cbn; auto. Qed.
Lemma no_link_weights K D L out inm : no_links D L -> exists x, link_weights K D L out inm = Ok x /\ forall d l, x d l = 0%R.
Proof.
  intros N. unfold link_weights.
  rewrite (mapM_all (fun d => mapM (link_weight K D L out inm d) (seq 0 D)) (map (fun _ => 0%R) (seq 0 D)) (seq 0 D)).
  - eexists. split; [reflexivity|]. intros d l. cbv beta.
    destruct (nth_map_const (map (fun _ => 0%R) (seq 0 D)) [] (seq 0 D) d) as [->| ->].
    + destruct (nth_map_const 0%R 0%R (seq 0 D) l) as [->| ->]; reflexivity.
    + destruct l; reflexivity.
  - intros d Hd. apply in_seq in Hd. apply mapM_all. intros l Hl. apply in_seq in Hl. unfold link_weight.
    destruct (Req_EM_T (L d l) 0) as [|E]; [reflexivity|]. exfalso. apply E, N; lia.
Qed.

Section shifts.
  Context (K D T : nat) (W L : mat) (n : vec) (tiny : R) (vocab : mat).
  Hypothesis HK : 0 < K.
  Hypothesis CO : BohBoundProps.corpus D T W n.
  Hypothesis TO : BohBoundProps.topics K T vocab.
  Hypothesis NL : no_links D L.

  Lemma all_ext (f g : mat) : (forall d k, d < D -> k < K -> f d k = g d k) -> all_sum K D f = all_sum K D g.
  Proof. intros H. apply vsum_ext. intros d Hd. apply vsum_ext. intros k Hk. apply H; assumption. Qed.
  Lemma all_plus (f g : mat) : all_sum K D (fun d k => f d k + g d k)%R = (all_sum K D f + all_sum K D g)%R.
  Proof. unfold all_sum. rewrite <- vsum_plus. apply vsum_ext. intros d _. symmetry. rewrite <- vsum_plus. reflexivity. Qed.
  Lemma all_scale c (f : mat) : all_sum K D (fun d k => c * f d k)%R = (c * all_sum K D f)%R.
  Proof. unfold all_sum. rewrite <- vsum_scale. apply vsum_ext. intros d _. apply vsum_scale. Qed.
  Lemma all_zero (f : mat) : (forall d k, f d k = 0%R) -> all_sum K D f = 0%R.
  Proof. intros H. unfold all_sum. apply BoundProofs.vsum_0. intros d _. apply BoundProofs.vsum_0. intros k _. apply H. Qed.
  Lemma dots_zero m x v d k : (forall d l, x d l = 0%R) -> dots m x v d k = 0%R.
  Proof. intros H. unfold dots. apply BoundProofs.vsum_0. intros t _. rewrite H. ring. Qed.

  (** The tokens that all topics have. *)
  Lemma tokens_sum out d : d < D -> vsum K (fun k => exp_means K out d k * dots T (quotient K W (exp_means K out) vocab) vocab d k)%R = n d.
  Proof.
    intros Hd. destruct (CO d Hd) as (_ & -> & _). unfold dots.
    rewrite (vsum_ext K _ (fun k => vsum T (fun t => exp_means K out d k * (quotient K W (exp_means K out) vocab d t * vocab k t))%R)) by (intros; symmetry; apply vsum_scale).
    rewrite vsum_swap. apply vsum_ext. intros t Ht. unfold quotient.
    assert (P : (0 < vsum K (fun k => exp_means K out d k * vocab k t))%R) by (apply vsum_pos; [exact HK|]; intros k Hk; apply Rmult_lt_0_compat; [apply exp_pos|apply (TO k Hk), Ht]).
    rewrite (vsum_ext K _ (fun k => W d t / vsum K (fun k => exp_means K out d k * vocab k t) * (exp_means K out d k * vocab k t))%R) by (intros; ring).
    rewrite vsum_scale. field. lra.
  Qed.
  Lemma mtm3_shift icov ldo ld odc mu out outv inm inv idc c : exists b,
    mtm3_bound K D T W L n tiny icov ldo ld odc mu vocab out outv inm inv idc = Ok b /\
    mtm3_bound K D T W L n tiny icov ldo ld odc (fun k => mu k + c)%R vocab (shift c out) outv (shift c inm) inv idc = Ok (b + 2 * c * vsum D n)%R.
  Proof.
    unfold mtm3_bound. destruct (no_link_weights K D L out inm NL) as (x & -> & X). destruct (no_link_weights K D L (shift c out) (shift c inm) NL) as (y & -> & Y).
    cbn [bind]. eexists. split; [reflexivity|]. f_equal. cbv zeta.
    assert (Ee : forall d k, exp_means K (shift c out) d k = exp_means K out d k) by (intros; apply exp_means_shift, HK).
    assert (Eq : forall d t, quotient K W (exp_means K (shift c out)) vocab d t = quotient K W (exp_means K out) vocab d t).
    { intros d t. unfold quotient. f_equal. apply vsum_ext. intros j _. rewrite Ee. reflexivity. }
    assert (Ed : forall v d k, dots T (quotient K W (exp_means K (shift c out)) vocab) v d k = dots T (quotient K W (exp_means K out) vocab) v d k).
    { intros v d k. unfold dots. apply vsum_ext. intros t _. rewrite Eq. reflexivity. }
    set (w := quotient K W (exp_means K out) vocab) in *. set (w' := quotient K W (exp_means K (shift c out)) vocab) in *.
    (* the priors *)
    rewrite (vsum_ext D (fun d => square K icov (fun k => shift c out d k - (mu k + c)) * 1 / odc)%R (fun d => square K icov (fun k => out d k - mu k) * 1 / odc)%R)
      by (intros d _; do 2 f_equal; apply square_ext; intros; unfold shift; ring).
    rewrite (vsum_ext D (fun d => square K icov (fun k => shift c inm d k - shift c out d k) * / idc d)%R (fun d => square K icov (fun k => inm d k - out d k) * / idc d)%R)
      by (intros d _; f_equal; apply square_ext; intros; unfold shift; ring).
    (* the logarithms of the sums *)
    rewrite (vsum_ext D (fun d => (n d + out_links D L d) * ln (vsum K (exp_means K (shift c out) d)))%R (fun d => (n d + out_links D L d) * ln (vsum K (exp_means K out d)))%R)
      by (intros d _; do 2 f_equal; apply vsum_ext; intros; apply Ee).
    (* the links *)
    assert (Z : forall x' v e o, (forall d l, x' d l = 0%R) -> assignment_entropy K D tiny D x' v e o = 0%R /\ emission K D D x' v e = 0%R).
    { intros x' v e o X'. unfold assignment_entropy, emission. split.
      - rewrite !all_zero; [ring|..]; intros d k; rewrite dots_zero; try ring; try exact X'. intros a b. rewrite X'. ring.
      - apply all_zero. intros d k. rewrite dots_zero by exact X'. ring. }
    rewrite (proj1 (Z x _ _ out X)), (proj2 (Z x _ _ out X)), (proj1 (Z y _ _ (shift c out) Y)), (proj2 (Z y _ _ (shift c out) Y)).
    (* the words *)
    assert (TS : all_sum K D (fun d k => exp_means K out d k * dots T w vocab d k)%R = vsum D n) by (apply vsum_ext; intros d Hd; apply tokens_sum, Hd).
    assert (M1 : all_sum K D (fun d k => shift c out d k * (exp_means K (shift c out) d k * dots T w' vocab d k + exp_means K (shift c out) d k * (vsum D (fun l => y d l * exp_in D (shift c inm) l k) / lse D (shift c inm) k)))%R =
      (all_sum K D (fun d k => out d k * (exp_means K out d k * dots T w vocab d k + exp_means K out d k * (vsum D (fun l => x d l * exp_in D inm l k) / lse D inm k))) + c * vsum D n)%R).
    { rewrite <- TS, <- all_scale, <- all_plus. apply all_ext. intros d k _ _. rewrite Ee, Ed.
      rewrite (BoundProofs.vsum_0 D (fun l => y d l * exp_in D (shift c inm) l k)%R) by (intros; rewrite Y; ring).
      rewrite (BoundProofs.vsum_0 D (fun l => x d l * exp_in D inm l k)%R) by (intros; rewrite X; ring). unfold shift, Rdiv. ring. }
    assert (M2 : assignment_entropy K D tiny T w' vocab (exp_means K (shift c out)) (shift c out) = (assignment_entropy K D tiny T w vocab (exp_means K out) out + c * vsum D n)%R).
    { unfold assignment_entropy.
      rewrite (all_ext (fun d k => dots T w' vocab d k * exp_means K (shift c out) d k * shift c out d k)%R
        (fun d k => dots T w vocab d k * exp_means K out d k * out d k + c * (exp_means K out d k * dots T w vocab d k))%R) by (intros d k _ _; rewrite Ee, Ed; unfold shift; ring).
      rewrite all_plus, all_scale, TS.
      rewrite (all_ext (fun d k => dots T w' (ln_times vocab) d k * exp_means K (shift c out) d k)%R (fun d k => dots T w (ln_times vocab) d k * exp_means K out d k)%R) by (intros d k _ _; rewrite Ee, Ed; reflexivity).
      rewrite (all_ext (fun d k => dots T (fun d0 t => w' d0 t * MomModel.safe_ln tiny (vsum K (fun j => exp_means K (shift c out) d0 j * vocab j t))) vocab d k * exp_means K (shift c out) d k)%R
        (fun d k => dots T (fun d0 t => w d0 t * MomModel.safe_ln tiny (vsum K (fun j => exp_means K out d0 j * vocab j t))) vocab d k * exp_means K out d k)%R); [ring|].
      intros d k _ _. rewrite Ee. f_equal. unfold dots. apply vsum_ext. intros t _. rewrite (Eq d t). do 3 f_equal. apply vsum_ext. intros j _. rewrite Ee. reflexivity. }
    assert (M3 : emission K D T w' vocab (exp_means K (shift c out)) = emission K D T w vocab (exp_means K out)) by (apply all_ext; intros d k _ _; rewrite Ee, Ed; reflexivity).
    rewrite M1, M2, M3. ring.
  Qed.
End shifts.

(** Adding the same number to the means changes no topic of a document and no distance
    between the means, and the figure by twice that number for every word: *)
Theorem C226_same_topics_refuted : forall K D T W L n tiny icov ldo ld odc mu vocab out outv inm inv idc c,
  0 < K -> BohBoundProps.corpus D T W n -> BohBoundProps.topics K T vocab -> no_links D L ->
  (forall d k, vsoftmax K (shift c out d) k = vsoftmax K (out d) k) /\
  exists b,
    mtm3_bound K D T W L n tiny icov ldo ld odc mu vocab out outv inm inv idc = Ok b /\
    mtm3_bound K D T W L n tiny icov ldo ld odc (fun k => mu k + c)%R vocab (shift c out) outv (shift c inm) inv idc = Ok (b + 2 * c * vsum D n)%R.
Proof.
  intros K D T W L n tiny icov ldo ld odc mu vocab out outv inm inv idc c HK CO TO NL. split; [intros d k; apply topics_shift, HK|]. apply mtm3_shift; assumption.
Qed.
(** so for all covariances and all states there are others with the same topics where it
    is larger than the logarithm of the probability of the words. *)
Theorem C226_not_a_bound_refuted : forall K D T W L n tiny icov ldo ld odc mu vocab out outv inm inv idc,
  0 < K -> 0 < D -> BohBoundProps.corpus D T W n -> BohBoundProps.topics K T vocab -> no_links D L ->
  exists c, (forall d k, vsoftmax K (shift c out d) k = vsoftmax K (out d) k) /\
  exists b, mtm3_bound K D T W L n tiny icov ldo ld odc (fun k => mu k + c)%R vocab (shift c out) outv (shift c inm) inv idc = Ok b /\
  forall law, BohBoundProps.is_law K law -> (ln (BohBoundProps.corpus_prob K D T vocab W law) < b)%R.
Proof.
  intros K D T W L n tiny icov ldo ld odc mu vocab out outv inm inv idc HK HD CO TO NL.
  destruct (mtm3_shift K D T W L n tiny vocab HK CO TO NL icov ldo ld odc mu out outv inm inv idc 0) as (b & E & _).
  assert (N : (0 < vsum D n)%R) by (apply vsum_pos; [exact HD|]; intros d Hd; destruct (CO d Hd) as (_ & _ & N1); lra).
  exists ((1 - b) / (2 * vsum D n))%R. split; [intros d k; apply topics_shift, HK|].
  destruct (mtm3_shift K D T W L n tiny vocab HK CO TO NL icov ldo ld odc mu out outv inm inv idc ((1 - b) / (2 * vsum D n))) as (b' & E' & G).
  assert (b' = b) by congruence. subst b'. eexists. split; [exact G|]. intros law LA. pose proof (BohBoundProps.corpus_prob_le1 K D T vocab W n law TO CO LA).
  replace (b + 2 * ((1 - b) / (2 * vsum D n)) * vsum D n)%R with 1%R by (field; lra). lra.
Qed.
Example C226_case : exists W n vocab law, BohBoundProps.corpus 2 2 W n /\ BohBoundProps.topics 2 2 vocab /\ BohBoundProps.is_law 2 law /\ no_links 2 (fun _ _ => 0%R) /\ W 0%nat 1%nat = 3%R.
Proof.
  destruct BohBoundProps.C225_case as (W & n & v & law & A & B & C & E). exists W, n, v, law. repeat (split; [assumption|]). split; [intros d l _ _; reflexivity|exact E].
Qed.

Print Assumptions C226_same_topics_refuted.
Print Assumptions C226_not_a_bound_refuted.
