(** * C226: what mtm3 reports *)
From Coq Require Import List Reals Arith Bool Lra Lia.
From Verif Require Import Base RealModel VbModel VbProofs LinkModel LinkProps CtmModel CtmProofs MtmModel BohBoundModel BohBoundProps BohReportProps LinkBoundModel LinkBoundProps.
From Verif Require MomModel BoundProofs.
Import ListNotations.
Open Scope nat_scope.

Definition entropy (K : nat) (s : vec) : R := vsum K (fun k => (ln (2 * PI) + 1 + ln (s k)) / 2)%R.
Definition over (c : R) (M : mat) : mat := fun i j => (M i j / c)%R.
(** The densities of the topics that documents have, and of those that attract links given
    those, and their entropies. *)
Definition densities (K D : nat) (icov : mat) (ldo ld odc : R) (mu : vec) (out outv inm inv : mat) (idc : vec) : R :=
  vsum D (fun d => normal_part K (over odc icov) ldo mu (out d) (outv d) + entropy K (outv d)
    + normal_part K (over (idc d) icov) (ld + INR K * ln (idc d)) (out d) (inm d) (inv d) + entropy K (inv d))%R.

Lemma square_over K c S x : (c <> 0)%R -> quad K (over c S) x x = (square K S x / c)%R.
Proof.
  intros H. rewrite square_quad. unfold quad, over, Rdiv. rewrite <- vsum_scale_r. apply vsum_ext. intros i _. rewrite <- vsum_scale_r. apply vsum_ext. intros j _. ring.
Qed.
Lemma diag_over K c S s : (c <> 0)%R -> vsum K (fun k => s k * over c S k k)%R = (vsum K (fun k => s k * S k k) / c)%R.
Proof. intros H. unfold over, Rdiv. rewrite <- vsum_scale_r. apply vsum_ext. intros. ring. Qed.
Lemma entropy_is K s : entropy K s = (INR K / 2 * (ln (2 * PI) + 1) + / 2 * vsum K (fun k => ln (s k)))%R.
Proof.
  unfold entropy. rewrite (vsum_ext K _ (fun k => (ln (2 * PI) + 1) / 2 + / 2 * ln (s k))%R) by (intros; field).
  rewrite vsum_plus, vsum_const, vsum_scale. field.
Qed.
Lemma pi_e : ln_2_pi_e = (ln (2 * PI) + 1)%R.
Proof. unfold ln_2_pi_e. rewrite ln_mult, ln_exp; [reflexivity|pose proof PI_RGT_0; lra|apply exp_pos]. Qed.
Lemma densities_are K D tiny icov ldo ld odc mu out outv inm inv idc : (0 < tiny)%R -> odc <> 0%R -> (forall d, d < D -> (tiny <= idc d)%R) ->
  densities K D icov ldo ld odc mu out outv inm inv idc =
  (- (INR D * INR K / 2 * ln_2_pi) - INR D / 2 * ldo
        - 5 / 10 * vsum D (fun d => square K icov (fun k => out d k - mu k) * 1 / odc)
        - 5 / 10 / odc * all_sum K D (fun d k => outv d k * icov k k)
        + 5 / 10 * INR D * INR K * ln_2_pi_e + 5 / 10 * all_sum K D (fun d k => ln (outv d k))
        - INR D * INR K / 2 * ln_2_pi - INR D / 2 * ld - INR K / 2 * vsum D (fun d => MomModel.safe_ln tiny (idc d))
        - 5 / 10 * vsum D (fun d => square K icov (fun k => inm d k - out d k) * / idc d)
        - 5 / 10 * all_sum K D (fun d k => inv d k * / idc d * icov k k)
        + 5 / 10 * INR D * INR K * ln_2_pi_e + 5 / 10 * all_sum K D (fun d k => ln (inv d k)))%R.
Proof.
  intros Ht Ho Hi. unfold densities. rewrite pi_e. unfold ln_2_pi, all_sum.
  rewrite (vsum_ext D _ (fun d => ((INR K * (ln (2 * PI) + 1) - INR K * ln (2 * PI) - ldo / 2 - ld / 2)
     - 5 / 10 * (square K icov (fun k => out d k - mu k) * 1 / odc) - 5 / 10 / odc * vsum K (fun k => outv d k * icov k k) + 5 / 10 * vsum K (fun k => ln (outv d k))
     - INR K / 2 * MomModel.safe_ln tiny (idc d) - 5 / 10 * (square K icov (fun k => inm d k - out d k) * / idc d)
     - 5 / 10 * vsum K (fun k => inv d k * / idc d * icov k k) + 5 / 10 * vsum K (fun k => ln (inv d k))))%R).
  - repeat (rewrite ?vsum_plus, ?vsum_minus). rewrite !vsum_scale, !vsum_const. field. assumption.
  - intros d Hd. specialize (Hi d Hd). unfold normal_part. rewrite !entropy_is, !square_over, !diag_over by (try assumption; lra).
    unfold MomModel.safe_ln, rleb. destruct (Rle_dec tiny (idc d)); [|contradiction].
    rewrite (vsum_ext K (fun k => inv d k * / idc d * icov k k)%R (fun k => / idc d * (inv d k * icov k k))%R) by (intros; ring). rewrite vsum_scale.
    field. split; [lra|assumption].
Qed.

(** The bound is that of the densities, and what depends on the words, the links, the topics of
    documents and the topics that attract links only. *)
Theorem C226_reported : forall K D T W L n tiny vocab out inm, (0 < tiny)%R -> exists rest : res R,
  forall icov ldo ld odc mu outv inv idc, odc <> 0%R -> (forall d, d < D -> (tiny <= idc d)%R) ->
  mtm3_bound K D T W L n tiny icov ldo ld odc mu vocab out outv inm inv idc
  = do r <- rest; Ok (densities K D icov ldo ld odc mu out outv inm inv idc + r)%R.
Proof.
  intros K D T W L n tiny vocab out inm Ht. unfold mtm3_bound.
  destruct (link_weights K D L out inm) as [x|e]; [|exists (Raise e); reflexivity].
  eexists (Ok _). intros icov ldo ld odc mu outv inv idc Ho Hi. cbn [bind]. cbv zeta. rewrite (densities_are K D tiny) by assumption.
  f_equal. rewrite !Rplus_assoc. unfold Rminus. rewrite !Rplus_assoc. repeat apply f_equal. reflexivity.
Qed.
(** Without links the rest is, for each document, twice the expected log probability of its words
    and assignments without the normaliser, less the log probability of the words, less twice the
    logarithm of the sum of exponents for each word. *)
Definition words_rest (K T : nat) (vocab : mat) (w m : vec) : R :=
  (2 * vsum T (fun t => w t * vsum K (fun k => due K vocab m t k * (m k + ln (vocab k t))))
   - log_like K T vocab w m - 2 * vsum T w * ln (vsum K (fun k => exp (m k - vmax K m))))%R.
Theorem C226_words : forall K D T W L n tiny vocab out inm icov ldo ld odc mu outv inv idc,
  0 < K -> (0 < tiny)%R -> corpus D T W n -> no_links D L -> odc <> 0%R -> (forall d, d < D -> (tiny <= idc d)%R) ->
  (forall d t, d < D -> t < T -> (tiny <= vsum K (fun k => exp (out d k - vmax K (out d)) * vocab k t))%R) ->
  mtm3_bound K D T W L n tiny icov ldo ld odc mu vocab out outv inm inv idc
  = Ok (densities K D icov ldo ld odc mu out outv inm inv idc + vsum D (fun d => words_rest K T vocab (W d) (out d)))%R.
Proof.
  intros K D T W L n tiny vocab out inm icov ldo ld odc mu outv inv idc HK Ht CO NL Ho Hi FL. unfold mtm3_bound.
  destruct (no_link_weights K D L out inm NL) as (x & -> & X). cbn [bind]. cbv zeta. rewrite (densities_are K D tiny) by assumption.
  assert (Z : forall v e o, assignment_entropy K D tiny D x v e o = 0%R /\ emission K D D x v e = 0%R).
  { intros v e o. unfold assignment_entropy, emission. split.
    - rewrite !all_zero; [ring|..]; intros d k; rewrite dots_zero; try ring; try exact X. intros a b. rewrite X. ring.
    - apply all_zero. intros d k. rewrite dots_zero by exact X. ring. }
  rewrite (proj1 (Z _ _ out)), (proj2 (Z _ _ out)).
  assert (OL : forall d, d < D -> out_links D L d = 0%R).
  { intros d Hd. unfold out_links. apply BoundProofs.vsum_0. intros l Hl. apply NL; assumption. }
  set (e := exp_means K out). set (w := quotient K W e vocab).
  assert (G : forall d, d < D -> (vsum K (fun k => out d k * (e d k * dots T w vocab d k + e d k * (vsum D (fun l => x d l * exp_in D inm l k) / lse D inm k)))
     - (n d + out_links D L d) * ln (vsum K (e d))
     + (vsum K (fun k => dots T w vocab d k * e d k * out d k) + vsum K (fun k => dots T w (ln_times vocab) d k * e d k)
        - vsum K (fun k => dots T (fun d t => w d t * MomModel.safe_ln tiny (vsum K (fun j => e d j * vocab j t))) vocab d k * e d k))
     + vsum K (fun k => e d k * dots T w (ln_times vocab) d k))%R = words_rest K T vocab (W d) (out d)).
  { intros d Hd. rewrite (OL d Hd).
    assert (P : forall t, t < T -> (0 < vsum K (fun k => e d k * vocab k t))%R) by (intros t H; specialize (FL d t Hd H); unfold e, exp_means; lra).
    assert (DU : forall t k, t < T -> (e d k * (w d t * vocab k t) = W d t * due K vocab (out d) t k)%R).
    { intros t k H. unfold due. rewrite (soft_dot K vocab out HK), (soft_is K out HK). fold e. unfold w, quotient.
      pose proof (P t H). pose proof (total_pos K out HK d) as TP. fold e in TP. field. split; lra. }
    assert (A1 : forall f, vsum K (fun k => f k * (e d k * dots T w vocab d k))%R = vsum T (fun t => W d t * vsum K (fun k => due K vocab (out d) t k * f k))%R).
    { intros f. unfold dots. rewrite (vsum_ext K _ (fun k => vsum T (fun t => W d t * (due K vocab (out d) t k * f k)))%R).
      - rewrite vsum_swap. apply vsum_ext. intros t _. rewrite <- vsum_scale. reflexivity.
      - intros k _. rewrite <- !vsum_scale. apply vsum_ext. intros t H. rewrite (DU t k H). ring. }
    assert (A2 : vsum K (fun k => dots T w (ln_times vocab) d k * e d k)%R = vsum T (fun t => W d t * vsum K (fun k => due K vocab (out d) t k * ln (vocab k t)))%R).
    { unfold dots, ln_times. rewrite (vsum_ext K _ (fun k => vsum T (fun t => W d t * (due K vocab (out d) t k * ln (vocab k t))))%R).
      - rewrite vsum_swap. apply vsum_ext. intros t _. rewrite <- vsum_scale. reflexivity.
      - intros k _. rewrite <- vsum_scale_r. apply vsum_ext. intros t H.
        transitivity (e d k * (w d t * vocab k t) * ln (vocab k t))%R; [ring|]. rewrite (DU t k H). ring. }
    assert (A3 : vsum K (fun k => dots T (fun d t => w d t * MomModel.safe_ln tiny (vsum K (fun j => e d j * vocab j t))) vocab d k * e d k)%R
      = vsum T (fun t => W d t * MomModel.safe_ln tiny (vsum K (fun j => e d j * vocab j t)))%R).
    { unfold dots. rewrite (vsum_ext K _ (fun k => vsum T (fun t => w d t * MomModel.safe_ln tiny (vsum K (fun j => e d j * vocab j t)) * (e d k * vocab k t)))%R).
      - rewrite vsum_swap. apply vsum_ext. intros t H. rewrite vsum_scale. unfold w, quotient. pose proof (P t H). field. lra.
      - intros k _. rewrite <- vsum_scale_r. apply vsum_ext. intros. ring. }
    rewrite A3, A2.
    rewrite (vsum_ext K (fun k => e d k * dots T w (ln_times vocab) d k)%R (fun k => dots T w (ln_times vocab) d k * e d k)%R) by (intros; ring). rewrite A2.
    rewrite (vsum_ext K (fun k => dots T w vocab d k * e d k * out d k)%R (fun k => out d k * (e d k * dots T w vocab d k))%R) by (intros; ring).
    rewrite (vsum_ext K (fun k => out d k * (e d k * dots T w vocab d k + _))%R (fun k => out d k * (e d k * dots T w vocab d k))%R).
    2:{ intros k _. rewrite (BoundProofs.vsum_0 D (fun l => x d l * exp_in D inm l k)%R) by (intros; rewrite X; ring). unfold Rdiv. ring. }
    rewrite (A1 (out d)). unfold e at 2. rewrite (words_of K D T W n tiny vocab out HK CO Ht FL d Hd). fold e.
    unfold words_rest. destruct (CO d Hd) as (_ & <- & _). change (vsum K (fun k => exp (out d k - vmax K (out d)))) with (vsum K (e d)).
    rewrite (vsum_ext T (fun t => W d t * vsum K (fun k => due K vocab (out d) t k * (out d k + ln (vocab k t))))%R
      (fun t => W d t * vsum K (fun k => due K vocab (out d) t k * out d k) + W d t * vsum K (fun k => due K vocab (out d) t k * ln (vocab k t)))%R).
    2:{ intros t _. rewrite <- Rmult_plus_distr_l, <- vsum_plus. f_equal. apply vsum_ext. intros. ring. }
    rewrite vsum_plus. ring. }
  rewrite <- (vsum_ext D _ _ G). unfold assignment_entropy, emission, all_sum.
  repeat (rewrite ?vsum_plus, ?vsum_minus).
  f_equal. ring.
Qed.
(** One document of three words without links. *)
Example C226_words_case : exists b, mtm3_bound 1 1 1 (fun _ _ => 3%R) (fun _ _ => 0%R) (fun _ => 3%R) 1 (fun _ _ => 1%R) 0 0 2 (fun _ => 0%R)
  (fun _ _ => 1%R) (fun _ _ => 0%R) (fun _ _ => 1%R) (fun _ _ => 0%R) (fun _ _ => 1%R) (fun _ => 1%R) = Ok b /\
  corpus 1 1 (fun _ _ => 3%R) (fun _ => 3%R) /\ no_links 1 (fun _ _ => 0%R).
Proof.
  assert (A : corpus 1 1 (fun _ _ => 3%R) (fun _ => 3%R)).
  { intros d Hd. unfold vsum. cbn [seq map rsum]. repeat split; try lra. intros; lra. }
  assert (B : no_links 1 (fun _ _ => 0%R)) by (intros d l _ _; reflexivity).
  eexists. split; [apply C226_words; try assumption; try lia; try lra|split; assumption].
  - intros; lra.
  - intros d t _ _. unfold vsum, vmax. cbn [seq map rsum fold_left]. rewrite Rminus_0_r, exp_0. lra.
Qed.

Print Assumptions C226_reported.
Print Assumptions C226_words.
