(** * Lemmas about the side topic model of old/sidetopic_uyv.py. *)
From Coq Require Import List Reals ZArith Arith Bool Lra Lia.
From Verif Require Import Base RealModel RealProofs VbModel VbProofs LinkModel LinkProps CtmModel CtmProofs CtmProps StmProofs StmProps MtmModel MtmProofs
  MtmProps BouchModel BouchProofs BouchProps VecyProofs UyvModel.
Import ListNotations.
Open Scope nat_scope.

(** ** Queries *)
(** The variational distribution of a document that a state stands for: means, variances,
    offset and tangents. *)
Definition stands (K : nat) (r : uyv_doc) (m u : vec) (s : R) (xi : vec) : Prop :=
  r_s r = s /\ forall k, k < K -> r_exp r k = exp (m k) /\ (0 < r_nu r k)%R /\ u k = (r_nu r k * r_nu r k)%R /\ (0 < xi k)%R /\ r_lxi r k = jaakkola (xi k).

Lemma bouchard_offset K s (xi m : vec) : bouchard K s xi m =
  (offset_cost K (fun k => jaakkola (xi k)) m s + vsum K (fun k => - xi k / 2 - jaakkola (xi k) * (xi k * xi k) + ln (1 + exp (xi k))))%R.
Proof. unfold bouchard, offset_cost. rewrite Rplus_assoc, <- vsum_plus. f_equal. apply vsum_ext. intros. field. Qed.

Section query.
  Variables (K T : nat) (sigmaSq : R) (v : mat) (w xa : vec) (n : Z).
  Hypothesis HK : 0 < K.
  Hypothesis Hs : (0 < sigmaSq)%R.
  Hypothesis Hv : covers K T v.
  Hypothesis Hw : forall t, t < T -> (0 <= w t)%R.
  Hypothesis Hn : IZR n = vsum T w.
  Hypothesis Hn0 : (0 < n)%Z.
  Notation goal := (objective K T v xa (diag (fun _ => 1 / sigmaSq)%R) w).

  Lemma over_pos : (0 < 1 / sigmaSq)%R.
  Proof. clear - Hs. apply Rdiv_lt_0_compat; lra. Qed.
  Lemma N_pos : (0 < IZR n)%R.
  Proof. clear - Hn0. apply IZR_lt. exact Hn0. Qed.

  Lemma offset_best xi m u s t : (forall k, k < K -> (0 < xi k)%R) ->
    s = ((INR K / 4 - 5 / 10 + vsum K (fun k => jaakkola (xi k) * m k)) / vsum K (fun k => jaakkola (xi k)))%R ->
    (goal t xi m u <= goal s xi m u)%R.
  Proof.
    intros Hxi Es. assert (HL : (0 < vsum K (fun k => jaakkola (xi k)))%R) by (apply vsum_pos; [exact HK|intros; apply jaakkola_pos, Hxi; assumption]).
    pose proof (offset_square K (fun k => jaakkola (xi k)) m s t HL) as O. cbv beta in O.
    replace (1 - INR K / 2 - 2 * vsum K (fun k => jaakkola (xi k) * m k) + 2 * s * vsum K (fun k => jaakkola (xi k)))%R with 0%R in O
      by (rewrite Es; field; lra).
    unfold objective. rewrite !bouchard_offset. pose proof (Rle_0_sqr (t - s)) as Q. unfold Rsqr in Q. pose proof (Rmult_le_pos _ _ (Rlt_le _ _ HL) Q).
    rewrite <- Hn. pose proof N_pos. nra.
  Qed.

  (** One iteration: four steps, of which the last three are the best there are. *)
  Lemma query_step r m u s xi : stands K r m u s xi -> exists r' m' u' s' xi',
    query_iter K T sigmaSq n w v xa r = Some r' /\ stands K r' m' u' s' xi' /\
    bouch_solves K T v xa (diag (fun _ => 1 / sigmaSq)%R) w s xi m m' /\
    (goal s xi m u <= goal s xi m' u)%R /\
    (forall x, (forall k, k < K -> (0 < x k)%R) -> (goal s x m' u <= goal s xi' m' u)%R) /\
    (forall t, (goal t xi' m' u <= goal s' xi' m' u)%R) /\
    (forall z, (forall k, k < K -> (0 < z k)%R) -> (goal s' xi' m' z <= goal s' xi' m' u')%R).
  Proof.
    intros [Es Hr]. pose proof over_pos as Ho. pose proof N_pos as HN.
    unfold query_iter. replace (n =? 0)%Z with false by lia.
    set (m' := fun k => ((IZR n * (2 * r_s r * r_lxi r k - 5 / 10 + r_exp r k * vsum T (fun t => w t / vsum K (fun j => r_exp r j * v j t) * v k t) / IZR n)
      + 1 / sigmaSq * xa k) / (IZR n * 2 * r_lxi r k + 1 / sigmaSq))%R).
    set (lxi := fun k => neg_jakkola (derive_xi (m' k) (r_nu r k) (r_s r))).
    set (sn := ((INR K / 4 - 5 / 10 + vsum K (fun k => lxi k * m' k)) / vsum K lxi)%R).
    set (nuv := fun k => (1 / sqrt (2 * IZR n * lxi k + 1 / sigmaSq))%R).
    set (xi' := fun k => derive_xi (m' k) (r_nu r k) (r_s r)).
    assert (Hx' : forall k, k < K -> (0 < xi' k)%R) by (intros k Hk; apply xi_pos, Hr; exact Hk).
    assert (El : forall k, k < K -> lxi k = jaakkola (xi' k)).
    { intros k Hk. unfold lxi. fold (xi' k). apply neg_jakkola_is. pose proof (Hx' k Hk). lra. }
    assert (Hden : forall k, k < K -> (0 < IZR n * 2 * r_lxi r k + 1 / sigmaSq)%R).
    { intros k Hk. destruct (Hr k Hk) as (_ & _ & _ & X0 & ->). pose proof (jaakkola_pos _ X0).
      assert (0 < IZR n * jaakkola (xi k))%R by (apply Rmult_lt_0_compat; assumption). lra. }
    assert (HS : bouch_solves K T v xa (diag (fun _ => 1 / sigmaSq)%R) w s xi m m').
    { intros k Hk. rewrite !diag_dot by exact Hk. rewrite <- Hn.
      assert (Sh : (r_exp r k * vsum T (fun t => w t / vsum K (fun j => r_exp r j * v j t) * v k t) = expected K T v w m k)%R).
      { unfold expected. rewrite <- vsum_scale. apply vsum_ext. intros t Ht. unfold mass.
        rewrite (vsum_ext K (fun j => r_exp r j * v j t)%R (fun j => exp (m j) * v j t)%R) by (intros j Hj; destruct (Hr j Hj) as [-> _]; reflexivity).
        destruct (Hr k Hk) as [-> _]. unfold Rdiv. ring. }
      pose proof (Hden k Hk) as Hd. unfold m'. rewrite Sh. destruct (Hr k Hk) as (_ & _ & _ & X0 & EL). rewrite EL in *. rewrite Es.
      field. split; [lra|]. split; [lra|].
      apply Rgt_not_eq. unfold Rgt. replace (IZR n * 2 * jaakkola (xi k) * sigmaSq + 1)%R with ((IZR n * 2 * jaakkola (xi k) + 1 / sigmaSq) * sigmaSq)%R by (field; lra).
      apply Rmult_lt_0_compat; lra. }
    assert (Hnu : forall k, k < K -> (0 < nuv k)%R /\ (nuv k * nuv k = / (2 * vsum T w * jaakkola (xi' k) + 1 / sigmaSq))%R).
    { intros k Hk. unfold nuv. rewrite (El k Hk), <- Hn. pose proof (jaakkola_pos _ (Hx' k Hk)).
      assert (0 < IZR n * jaakkola (xi' k))%R by (apply Rmult_lt_0_compat; assumption).
      assert (Hz : (0 < 2 * IZR n * jaakkola (xi' k) + 1 / sigmaSq)%R) by lra.
      pose proof (sqrt_lt_R0 _ Hz) as Hq. split; [apply Rdiv_lt_0_compat; lra|].
      rewrite <- (sqrt_sqrt _ (Rlt_le _ _ Hz)) at 3. field. lra. }
    exists {| r_exp := fun k => exp (m' k); r_nu := nuv; r_lxi := lxi; r_s := sn |}, m', (fun k => nuv k * nuv k)%R, sn, xi'.
    split; [reflexivity|]. split.
    { split; [reflexivity|]. intros k Hk. cbn [r_exp r_nu r_lxi]. split; [reflexivity|]. split; [apply Hnu; exact Hk|].
      split; [reflexivity|]. split; [apply Hx'; exact Hk|apply El; exact Hk]. }
    split; [exact HS|]. split.
    { apply means_grow; try assumption; [intros k Hk; apply (Hr k Hk)|apply diag_symm|apply diag_psd; intros; lra]. }
    split; [|split].
    - intros x Hx. apply tangents_best; try assumption.
      + intros k Hk. destruct (Hr k Hk) as (_ & P1 & -> & _). apply Rmult_le_pos; lra.
      + intros k Hk. destruct (Hr k Hk) as (_ & P1 & -> & _). unfold xi', derive_xi. rewrite sqrt_sqrt; [rewrite Es; ring|].
        replace (m' k * m' k - 2 * m' k * r_s r + r_s r * r_s r + r_nu r k * r_nu r k)%R with ((m' k - r_s r) * (m' k - r_s r) + r_nu r k * r_nu r k)%R by ring.
        pose proof (Rle_0_sqr (m' k - r_s r)) as Q. unfold Rsqr in Q. nra.
    - intros t. apply offset_best; [exact Hx'|]. unfold sn. rewrite (vsum_ext K lxi (fun k => jaakkola (xi' k)) El).
      rewrite (vsum_ext K (fun k => lxi k * m' k)%R (fun k => jaakkola (xi' k) * m' k)%R) by (intros k Hk; rewrite (El k Hk); reflexivity). reflexivity.
    - intros z Hz. apply varcs_grow; try assumption.
      + intros k Hk. rewrite diag_at. exact Ho.
      + intros k Hk. rewrite diag_at. apply Hnu. exact Hk.
  Qed.
  Lemma query_grows iterations : forall r m u s xi, stands K r m u s xi -> exists r' m' u' s' xi',
    query_loop K T sigmaSq iterations n w v xa r = Some r' /\ stands K r' m' u' s' xi' /\ (goal s xi m u <= goal s' xi' m' u')%R.
  Proof.
    induction iterations as [|i IH]; intros r m u s xi HS; cbn [query_loop].
    - exists r, m, u, s, xi. split; [reflexivity|]. split; [exact HS|lra].
    - destruct (query_step r m u s xi HS) as (r1 & m1 & u1 & s1 & x1 & E & H1 & _ & G1 & G2 & G3 & G4). rewrite E.
      destruct (IH _ _ _ _ _ H1) as (r' & m' & u' & s' & x' & E' & H' & G). exists r', m', u', s', x'. split; [exact E'|]. split; [exact H'|].
      pose proof (G2 xi ltac:(intros k Hk; apply HS; exact Hk)). pose proof (G3 s).
      pose proof (G4 u ltac:(intros k Hk; destruct HS as [_ HS]; destruct (HS k Hk) as (_ & P1 & -> & _); apply Rmult_lt_0_compat; assumption)). lra.
  Qed.
End query.

(** ** Least squares *)
(** A sum of squares of residuals and a quadratic penalty, at a stationary point. *)
Definition ridge (D F : nat) (X S : mat) (m a : vec) : R :=
  (vsum D (fun d => (m d - vsum F (fun f => X d f * a f)) * (m d - vsum F (fun f => X d f * a f))) + quad F S a a)%R.
Lemma ridge_optimal D F X S m a : symm F S -> psd F S ->
  (forall f, f < F -> vsum D (fun d => X d f * (m d - vsum F (fun g => X d g * a g)))%R = vsum F (fun g => S f g * a g)%R) ->
  forall b, (ridge D F X S m a <= ridge D F X S m b)%R.
Proof.
  intros HS HP HE b. set (h := fun f => (b f - a f)%R). set (r := fun d => (m d - vsum F (fun f => X d f * a f))%R).
  assert (E1 : vsum D (fun d => (m d - vsum F (fun f => X d f * b f)) * (m d - vsum F (fun f => X d f * b f)))%R
               = vsum D (fun d => (r d + - vsum F (fun f => X d f * h f)) * (r d + - vsum F (fun f => X d f * h f)))%R).
  { apply vsum_ext. intros d _. replace (vsum F (fun f => X d f * b f))%R with (vsum F (fun f => X d f * a f) + vsum F (fun f => X d f * h f))%R; [unfold r; ring|].
    rewrite <- vsum_plus. apply vsum_ext. intros f _. unfold h. ring. }
  assert (E2 : quad F S b b = quad F S (fun f => a f + h f)%R (fun f => a f + h f)%R) by (apply quad_ext; [reflexivity| |]; intros; unfold h; ring).
  unfold ridge. rewrite E1, E2, (quad_square F S a h HS).
  pose proof (sum_sq_ge D r (fun d => - vsum F (fun f => X d f * h f))%R) as G1. cbv beta in G1. pose proof (HP h) as G2.
  assert (Z : (vsum D (fun d => r d * - vsum F (fun f => X d f * h f)) + quad F S h a)%R = 0%R).
  { rewrite (vsum_ext D _ (fun d => vsum F (fun f => - (X d f * r d * h f)))%R).
    2:{ intros d _. rewrite vsum_opp, Ropp_mult_distr_r_reverse. f_equal. rewrite <- vsum_scale. apply vsum_ext. intros; ring. }
    rewrite (vsum_swap D F (fun d f => - (X d f * r d * h f))%R), quad_mat, <- vsum_plus. rewrite (vsum_ext F _ (fun _ => 0%R)); [apply vsum_zero|].
    intros f Hf. rewrite vsum_opp, vsum_scale_r. rewrite <- (HE f Hf). unfold r. ring. }
  change (vsum D (fun d => ((m d - vsum F (fun f => X d f * a f)) * (m d - vsum F (fun g => X d g * a g)))%R)) with (vsum D (fun d => (r d * r d)%R)). lra.
Qed.

Lemma vsum_swap4 a b c d (g : nat -> nat -> nat -> nat -> R) :
  vsum a (fun i => vsum b (fun j => vsum c (fun k => vsum d (fun l => g i j k l))))
  = vsum c (fun k => vsum d (fun l => vsum a (fun i => vsum b (fun j => g i j k l)))).
Proof.
  rewrite (vsum_ext a _ (fun i => vsum c (fun k => vsum b (fun j => vsum d (fun l => g i j k l))))).
  2:{ intros i _. apply (vsum_swap b c (fun j k => vsum d (fun l => g i j k l))). }
  rewrite (vsum_swap a c (fun i k => vsum b (fun j => vsum d (fun l => g i j k l)))). apply vsum_ext. intros k _.
  rewrite (vsum_ext a _ (fun i => vsum d (fun l => vsum b (fun j => g i j k l)))).
  2:{ intros i _. apply (vsum_swap b d (fun j l => g i j k l)). }
  apply (vsum_swap a d (fun i l => vsum b (fun j => g i j k l))).
Qed.
Lemma vsum_product a b (x y : vec) : vsum a (fun i => vsum b (fun j => x i * y j)%R) = (vsum a x * vsum b y)%R.
Proof. rewrite <- vsum_scale_r. apply vsum_ext. intros i _. apply vsum_scale. Qed.
Lemma vsum_app a b (x : vec) : vsum (a + b) x = (vsum a x + vsum b (fun i => x (a + i)%nat))%R.
Proof.
  unfold vsum. rewrite seq_app, map_app, rsum_app. f_equal. cbn [plus]. rewrite <- (Nat.add_0_r a) at 1.
  generalize 0 as o. induction b as [|b IH]; intros o; [reflexivity|]. cbn [seq map rsum]. f_equal.
  rewrite <- IH. f_equal. f_equal. f_equal. lia.
Qed.
Lemma vsum_flat a b (g : nat -> nat -> R) : 0 < b ->
  vsum (a * b) (fun i => g (Nat.div i b) (Nat.modulo i b)) = vsum a (fun x => vsum b (fun y => g x y)).
Proof.
  intros Hb. induction a as [|a IH]; [reflexivity|]. cbn [Nat.mul]. rewrite (Nat.add_comm b (a * b)), vsum_app, IH.
  replace (S a) with (a + 1) by lia. rewrite vsum_app. f_equal. unfold vsum at 2. cbn [seq map rsum]. rewrite Rplus_0_r, Nat.add_0_r.
  apply vsum_ext. intros i Hi. rewrite (Nat.add_comm (a * b) i), Nat.div_add, Nat.mod_add by lia. rewrite Nat.div_small, Nat.mod_small by exact Hi. reflexivity.
Qed.

(** *** The map between the latent spaces *)
Section latent.
  Variables (K Q F P : nat) (U V A : mat) (c : R).
  Definition latent_fit (Y : mat) : R :=
    (vsum K (fun k => vsum F (fun f => (A k f - outer Q P U Y V k f) * (A k f - outer Q P U Y V k f)))
     + c * vsum Q (fun q => vsum P (fun p => Y q p * Y q p)))%R.
  Hypothesis Hc : (0 <= c)%R.
  Definition latent_equations (Y : mat) : Prop := forall q p, q < Q -> p < P ->
    (c * Y q p + vsum Q (fun r => vsum P (fun s => gram K U q r * Y r s * gram F V s p)) = inner K F U A V q p)%R.

  Lemma latent_slope Y : latent_equations Y -> forall q p, q < Q -> p < P ->
    vsum K (fun k => vsum F (fun f => U k q * V f p * (A k f - outer Q P U Y V k f)))%R = (c * Y q p)%R.
  Proof.
    clear Hc. intros HE q p Hq Hp. specialize (HE q p Hq Hp).
    rewrite (vsum_ext K _ (fun k => vsum F (fun f => U k q * A k f * V f p) - vsum F (fun f => U k q * V f p * outer Q P U Y V k f))%R).
    2:{ intros k _. rewrite <- vsum_minus. apply vsum_ext. intros; ring. }
    rewrite vsum_minus. change (vsum K (fun k => vsum F (fun f => U k q * A k f * V f p)%R)) with (inner K F U A V q p).
    replace (vsum K (fun k => vsum F (fun f => U k q * V f p * outer Q P U Y V k f))%R)
      with (vsum Q (fun r => vsum P (fun s => gram K U q r * Y r s * gram F V s p)))%R; [lra|].
    rewrite (vsum_ext K _ (fun k => vsum F (fun f => vsum Q (fun r => vsum P (fun s => (U k q * U k r) * (V f s * V f p) * Y r s))))%R).
    2:{ intros k _. apply vsum_ext. intros f _. unfold outer. rewrite <- vsum_scale. apply vsum_ext. intros r _. rewrite <- vsum_scale. apply vsum_ext. intros; ring. }
    rewrite (vsum_swap4 K F Q P (fun k f r s => (U k q * U k r) * (V f s * V f p) * Y r s)%R).
    apply vsum_ext. intros r _. apply vsum_ext. intros s _.
    rewrite (vsum_ext K _ (fun k => vsum F (fun f => U k q * U k r * (V f s * V f p)) * Y r s)%R) by (intros; apply vsum_scale_r).
    rewrite vsum_scale_r, vsum_product. unfold gram. ring.
  Qed.
  Lemma latent_optimal Y : latent_equations Y -> forall Z, (latent_fit Y <= latent_fit Z)%R.
  Proof.
    intros HE Z. set (H := fun q p => (Z q p - Y q p)%R). set (r := fun k f => (A k f - outer Q P U Y V k f)%R).
    assert (EO : forall k f, (A k f - outer Q P U Z V k f)%R = (r k f - outer Q P U H V k f)%R).
    { intros k f. unfold r. replace (outer Q P U Z V k f) with (outer Q P U Y V k f + outer Q P U H V k f)%R; [ring|].
      unfold outer. rewrite <- vsum_plus. apply vsum_ext. intros q _. rewrite <- vsum_plus. apply vsum_ext. intros p _. unfold H. ring. }
    assert (G1 : (vsum K (fun k => vsum F (fun f => r k f * r k f - 2 * (r k f * outer Q P U H V k f)))
                  <= vsum K (fun k => vsum F (fun f => (A k f - outer Q P U Z V k f) * (A k f - outer Q P U Z V k f))))%R).
    { apply vsum_le. intros k _. apply vsum_le. intros f _. rewrite !EO. pose proof (Rle_0_sqr (outer Q P U H V k f)) as S0. unfold Rsqr in S0. lra. }
    assert (G2 : (vsum Q (fun q => vsum P (fun p => Y q p * Y q p + 2 * (Y q p * H q p))) <= vsum Q (fun q => vsum P (fun p => Z q p * Z q p)))%R).
    { apply vsum_le. intros q _. apply vsum_le. intros p _. pose proof (Rle_0_sqr (H q p)) as S0. unfold Rsqr in S0.
      replace (Z q p) with (Y q p + H q p)%R by (unfold H; ring). nra. }
    assert (S1 : vsum K (fun k => vsum F (fun f => r k f * r k f - 2 * (r k f * outer Q P U H V k f)))%R
                 = (vsum K (fun k => vsum F (fun f => r k f * r k f)) - 2 * vsum K (fun k => vsum F (fun f => r k f * outer Q P U H V k f)))%R).
    { rewrite <- vsum_scale, <- vsum_minus. apply vsum_ext. intros k _. rewrite <- vsum_scale, <- vsum_minus. reflexivity. }
    assert (S2 : vsum Q (fun q => vsum P (fun p => Y q p * Y q p + 2 * (Y q p * H q p)))%R
                 = (vsum Q (fun q => vsum P (fun p => Y q p * Y q p)) + 2 * vsum Q (fun q => vsum P (fun p => Y q p * H q p)))%R).
    { rewrite <- vsum_scale, <- vsum_plus. apply vsum_ext. intros q _. rewrite <- vsum_scale, <- vsum_plus. reflexivity. }
    assert (X : vsum K (fun k => vsum F (fun f => r k f * outer Q P U H V k f))%R = (c * vsum Q (fun q => vsum P (fun p => Y q p * H q p)))%R).
    { rewrite (vsum_ext K _ (fun k => vsum F (fun f => vsum Q (fun q => vsum P (fun p => U k q * V f p * r k f * H q p))))%R).
      2:{ intros k _. apply vsum_ext. intros f _. unfold outer. rewrite <- vsum_scale. apply vsum_ext. intros q _. rewrite <- vsum_scale. apply vsum_ext. intros; ring. }
      rewrite (vsum_swap4 K F Q P (fun k f q p => U k q * V f p * r k f * H q p)%R), <- vsum_scale.
      apply vsum_ext. intros q Hq. rewrite <- vsum_scale. apply vsum_ext. intros p Hp.
      rewrite (vsum_ext K _ (fun k => vsum F (fun f => U k q * V f p * r k f) * H q p)%R) by (intros; apply vsum_scale_r).
      rewrite vsum_scale_r. unfold r. rewrite (latent_slope Y HE q p Hq Hp). ring. }
    unfold latent_fit. fold r. change (fun k => vsum F (fun f => ((A k f - outer Q P U Y V k f) * (A k f - outer Q P U Y V k f))%R)) with (fun k => vsum F (fun f => (r k f * r k f)%R)).
    rewrite S1, X in G1. rewrite S2 in G2. pose proof (Rmult_le_compat_l c _ _ Hc G2). lra.
  Qed.
End latent.

(** *** What is expected of scipy *)
Definition correct_inv (inv : nat -> mat -> option mat) : Prop := forall m M N, inv m M = Some N -> is_inverse m M N /\ is_inverse m N M.
Definition correct_sylvester (Q P : nat) (sylvester : mat -> mat -> mat -> mat) : Prop := forall M N C, symm Q M -> posdef Q M -> symm P N -> psd P N ->
  forall q p, q < Q -> p < P ->
  (vsum Q (fun r => M q r * sylvester M N C r p) + vsum P (fun s => sylvester M N C q s * N s p))%R = C q p.
Definition correct_solve (n : nat) (solve : mat -> vec -> vec) : Prop := forall M b, symm n M -> posdef n M ->
  forall i, i < n -> vsum n (fun j => M i j * solve M b j)%R = b i.

Lemma gram_symm m n M : symm n (gram m M).
Proof. intros i j _ _. apply vsum_ext. intros; ring. Qed.
Lemma gram_psd m n M : psd n (gram m M).
Proof. intros x. unfold gram. rewrite (quad_gram n m (fun i d => M d i)). apply vsum_nonneg. intros; apply Rle_0_sqr. Qed.
Lemma scalar_posdef n c : (0 < c)%R -> posdef n (scalar c).
Proof. intros Hc. exact (diag_posdef n (fun _ => c) (fun _ _ => Hc)). Qed.
Lemma scalar_symm n c : symm n (scalar c).
Proof. exact (diag_symm n (fun _ => c)). Qed.
Lemma shifted_symm n c d m M : symm n (fun i j => scalar c i j + d * gram m M i j)%R.
Proof. intros i j Hi Hj. rewrite (scalar_symm n c i j Hi Hj), (gram_symm m n M i j Hi Hj). reflexivity. Qed.
Lemma shifted_posdef n c d m M : (0 < c)%R -> (0 <= d)%R -> posdef n (fun i j => scalar c i j + d * gram m M i j)%R.
Proof. intros Hc Hd. apply posdef_add; [apply scalar_posdef; exact Hc|apply gram_psd|exact Hd]. Qed.
(** A positive semi-definite symmetric matrix with an inverse is positive definite. *)
Lemma psd_invertible m n M N : is_inverse n N (gram m M) -> posdef n (gram m M).
Proof.
  intros HI x [i [Hi Hx]]. pose proof (gram_psd m n M x) as Q. destruct Q as [Q|Q]; [exact Q|]. exfalso. apply Hx. symmetry in Q.
  unfold gram in Q. rewrite (quad_gram n m (fun i d => M d i)) in Q.
  assert (Z : forall d, d < m -> vsum n (fun j => x j * M d j)%R = 0%R).
  { intros d Hd. set (y := fun d => vsum n (fun j => x j * M d j)%R). fold (y d). change (vsum m (fun p => (y p * y p)%R) = 0%R) in Q.
    pose proof (vsum_in_le m (fun p => y p * y p)%R d ltac:(intros; apply Rle_0_sqr) Hd) as L. cbv beta in L. rewrite Q in L. nra. }
  rewrite <- (is_inverse_vec n N (gram m M) x HI i Hi). rewrite (vsum_ext n _ (fun _ => 0%R)); [apply vsum_zero|].
  intros j _. replace (vsum n (fun l => gram m M j l * x l)%R) with 0%R; [ring|]. symmetry.
  unfold gram. rewrite (vsum_ext n _ (fun l => vsum m (fun d => M d j * (x l * M d l)))%R).
  2:{ intros l _. rewrite <- vsum_scale_r. apply vsum_ext. intros; ring. }
  rewrite (vsum_swap n m (fun l d => M d j * (x l * M d l))%R). rewrite (vsum_ext m _ (fun _ => 0%R)); [apply vsum_zero|].
  intros d Hd. rewrite vsum_scale, (Z d Hd). ring.
Qed.
Lemma scaled_posdef n c M : (0 < c)%R -> posdef n M -> posdef n (fun i j => c * M i j)%R.
Proof. intros Hc HM x Hx. rewrite quad_scale. apply Rmult_lt_0_compat; [exact Hc|apply HM; exact Hx]. Qed.
Lemma scaled_psd n c M : (0 <= c)%R -> psd n M -> psd n (fun i j => c * M i j)%R.
Proof. intros Hc HM x. rewrite quad_scale. apply Rmult_le_pos; [exact Hc|apply HM]. Qed.

Section maps.
  Variables K Q F P T D : nat.
  Variables sigmaSq alphaSq kappaSq tauSq : R.
  Variable inv : nat -> mat -> option mat.
  Variable pinv : mat -> mat.
  Variable sylvester : mat -> mat -> mat -> mat.
  Variable solve : mat -> vec -> vec.
  Hypothesis HQ : 0 < Q.
  Hypothesis HP : 0 < P.
  Hypothesis HF : 0 < F.
  Hypothesis Hsq : (0 < sigmaSq /\ 0 < alphaSq /\ 0 < kappaSq /\ 0 < tauSq)%R.
  Hypothesis Hinv : correct_inv inv.
  Hypothesis Hsyl : correct_sylvester Q P sylvester.
  Hypothesis Hsol : correct_solve (P * Q) solve.
  Notation rt := (ratio sigmaSq alphaSq kappaSq tauSq).

  Lemma ratio_pos : (0 < rt)%R.
  Proof. clear - Hsq. destruct Hsq as (? & ? & ? & ?). unfold ratio. apply Rdiv_lt_0_compat; apply Rmult_lt_0_compat; assumption. Qed.

  Lemma by_inverse_ok U V A N : inv Q (gram K U) = Some N -> latent_equations K Q F P U V A rt
    (sylvester (fun i j => rt * N i j)%R (gram F V) (fun q p => vsum Q (fun r => N q r * inner K F U A V r p))%R).
  Proof.
    clear Hsol HQ HP HF. intros E q p Hq Hp. destruct (Hinv _ _ _ E) as [HR HL]. pose proof ratio_pos as Hr.
    assert (SN : symm Q N) by (apply (inverse_symm Q (gram K U) N); [apply gram_symm|exact HR|exact HL]).
    assert (PN : posdef Q N) by (apply (inverse_posdef Q (gram K U) N); [apply (psd_invertible K Q U N HL)|exact HR|exact HL]).
    set (C := fun q p => vsum Q (fun r => N q r * inner K F U A V r p)%R).
    set (Y := sylvester (fun i j => rt * N i j)%R (gram F V) C).
    assert (S : forall r, r < Q -> (vsum Q (fun a => rt * N r a * Y a p) + vsum P (fun s => Y r s * gram F V s p) = C r p)%R).
    { intros r Hr0. apply (Hsyl (fun i j => rt * N i j)%R (gram F V) C); [intros i j Hi Hj; rewrite (SN i j Hi Hj); reflexivity|apply scaled_posdef; assumption|apply gram_symm|apply gram_psd|exact Hr0|exact Hp]. }
    (* multiply by U'U *)
    assert (M : vsum Q (fun r => gram K U q r * (vsum Q (fun a => rt * N r a * Y a p) + vsum P (fun s => Y r s * gram F V s p)))%R
                = vsum Q (fun r => gram K U q r * C r p)%R).
    { apply vsum_ext. intros r Hr0. rewrite (S r Hr0). reflexivity. }
    unfold C at 1 in M. rewrite (is_inverse_vec Q (gram K U) N (fun r => inner K F U A V r p) HR q Hq) in M. rewrite <- M.
    rewrite (vsum_ext Q (fun r => gram K U q r * (vsum Q (fun a => rt * N r a * Y a p) + vsum P (fun s => Y r s * gram F V s p)))%R
              (fun r => rt * (gram K U q r * vsum Q (fun a => N r a * Y a p)) + vsum P (fun s => gram K U q r * Y r s * gram F V s p))%R).
    2:{ intros r _. rewrite (vsum_ext Q (fun a => rt * N r a * Y a p)%R (fun a => rt * (N r a * Y a p))%R) by (intros; ring).
        rewrite vsum_scale, Rmult_plus_distr_l. f_equal; [ring|]. rewrite <- vsum_scale. apply vsum_ext. intros; ring. }
    rewrite vsum_plus, vsum_scale, (is_inverse_vec Q (gram K U) N (fun a => Y a p) HR q Hq). reflexivity.
  Qed.

  Lemma kron_gram U V i j : (gram F V (Nat.div i Q) (Nat.div j Q) * gram K U (Nat.modulo i Q) (Nat.modulo j Q))%R
    = vsum (K * F) (fun z => (U (Nat.div z F) (Nat.modulo i Q) * V (Nat.modulo z F) (Nat.div i Q)) * (U (Nat.div z F) (Nat.modulo j Q) * V (Nat.modulo z F) (Nat.div j Q)))%R.
  Proof.
    rewrite (vsum_flat K F (fun k f => (U k (Nat.modulo i Q) * V f (Nat.div i Q)) * (U k (Nat.modulo j Q) * V f (Nat.div j Q)))%R HF).
    unfold gram. rewrite Rmult_comm, <- vsum_product. apply vsum_ext. intros k _. apply vsum_ext. intros f _. ring.
  Qed.
  Lemma by_solve_ok U V A : let y := solve (fun i j => scalar rt i j + gram F V (Nat.div i Q) (Nat.div j Q) * gram K U (Nat.modulo i Q) (Nat.modulo j Q))%R
      (fun i => inner K F U A V (i mod Q) (i / Q)) in
    latent_equations K Q F P U V A rt (fun q p => y (p * Q + q)).
  Proof.
    clear Hsyl Hinv. intros y q p Hq Hp. pose proof ratio_pos as Hr.
    set (M := fun i j => (scalar rt i j + gram F V (Nat.div i Q) (Nat.div j Q) * gram K U (Nat.modulo i Q) (Nat.modulo j Q))%R) in *.
    assert (SM : symm (P * Q) M).
    { intros i j Hi Hj. unfold M. rewrite (scalar_symm (P * Q) rt i j Hi Hj). f_equal. f_equal; apply vsum_ext; intros; ring. }
    assert (PM : posdef (P * Q) M).
    { intros x Hx. unfold M.
      set (G := fun i z => (U (Nat.div z F) (Nat.modulo i Q) * V (Nat.modulo z F) (Nat.div i Q))%R).
      rewrite (quad_ext (P * Q) _ (fun i j => scalar rt i j + vsum (K * F) (fun z => G i z * G j z))%R x x x x); [|intros; f_equal; apply kron_gram|reflexivity|reflexivity].
      rewrite (quad_sum (P * Q) (scalar rt)), (quad_gram (P * Q) (K * F) G). pose proof (scalar_posdef (P * Q) rt Hr x Hx).
      assert (0 <= vsum (K * F) (fun p0 => vsum (P * Q) (fun i => x i * G i p0) * vsum (P * Q) (fun i => x i * G i p0)))%R by (apply vsum_nonneg; intros; apply Rle_0_sqr). lra. }
    assert (Hi : p * Q + q < P * Q) by nia.
    pose proof (Hsol M (fun i => inner K F U A V (i mod Q) (i / Q)) SM PM (p * Q + q) Hi) as E. cbv beta in E. fold y in E.
    assert (Ed : Nat.div (p * Q + q) Q = p) by (rewrite Nat.add_comm, Nat.div_add, Nat.div_small by lia; reflexivity).
    assert (Em : Nat.modulo (p * Q + q) Q = q) by (rewrite Nat.add_comm, Nat.mod_add, Nat.mod_small by lia; reflexivity).
    rewrite Ed, Em in E. rewrite <- E. unfold M. rewrite Ed, Em.
    rewrite (vsum_ext (P * Q) _ (fun j => eye (p * Q + q)%nat j * (rt * y j) + gram F V p (Nat.div j Q) * gram K U q (Nat.modulo j Q) * y j)%R).
    2:{ intros j _. unfold scalar, eye. destruct (p * Q + q =? j); ring. }
    rewrite vsum_plus, (vsum_eye (P * Q) (p * Q + q) (fun j => rt * y j)%R Hi). f_equal.
    rewrite (vsum_ext (P * Q) _ (fun j => (fun a b => gram F V p a * gram K U q b * y (a * Q + b)%nat)%R (Nat.div j Q) (Nat.modulo j Q))).
    2:{ intros j _. cbv beta. replace (Nat.div j Q * Q + Nat.modulo j Q) with j; [reflexivity|]. rewrite (Nat.mul_comm (Nat.div j Q) Q). apply Nat.div_mod_eq. }
    rewrite (vsum_flat P Q (fun a b => gram F V p a * gram K U q b * y (a * Q + b)%nat)%R HQ).
    rewrite (vsum_swap P Q (fun a b => gram F V p a * gram K U q b * y (a * Q + b)%nat)%R).
    apply vsum_ext. intros r _. apply vsum_ext. intros s Hs0. rewrite (gram_symm F P V s p Hs0 Hp). ring.
  Qed.
  Lemma new_Y_ok fast U V A : fast = false \/ inv Q (gram K U) <> None ->
    latent_equations K Q F P U V A rt (new_Y K Q F sigmaSq alphaSq kappaSq tauSq inv pinv sylvester solve fast U V A).
  Proof.
    intros H. unfold new_Y. cbv zeta. destruct (inv Q (gram K U)) as [N|] eqn:E; [apply by_inverse_ok; exact E|].
    destruct H as [->|H]; [apply by_solve_ok|congruence].
  Qed.

  (** *** The map from the features *)
  Lemma new_A_ok omA X lmda U Y V k : is_inverse F (fun f g => scalar (1 / alphaSq) f g + gram D X f g)%R omA ->
    is_inverse F omA (fun f g => scalar (1 / alphaSq) f g + gram D X f g)%R ->
    forall b, (penalised D F 1 (1 / alphaSq) X (fun d => lmda d k) (outer Q P U Y V k) (new_A Q F P D alphaSq omA X lmda U Y V k)
               <= penalised D F 1 (1 / alphaSq) X (fun d => lmda d k) (outer Q P U Y V k) b)%R.
  Proof.
    clear Hsol Hsyl Hinv HQ HP HF. intros HR HL. destruct Hsq as (_ & Ha & _). assert (Ho : (0 < 1 / alphaSq)%R) by (apply Rdiv_lt_0_compat; lra).
    assert (EM : forall f g, (scalar (1 / alphaSq) f g + gram D X f g)%R = normal_matrix D 1 (1 / alphaSq) X f g) by (intros; unfold scalar, gram, normal_matrix; ring).
    assert (HR' : is_inverse F (normal_matrix D 1 (1 / alphaSq) X) omA).
    { intros i j Hi Hj. rewrite <- (HR i j Hi Hj). apply vsum_ext. intros. rewrite EM. reflexivity. }
    assert (HL' : is_inverse F omA (normal_matrix D 1 (1 / alphaSq) X)).
    { intros i j Hi Hj. rewrite <- (HL i j Hi Hj). apply vsum_ext. intros. rewrite EM. reflexivity. }
    assert (SA : symm F omA) by (apply (inverse_symm F (normal_matrix D 1 (1 / alphaSq) X) omA); [apply normal_symm|exact HR'|exact HL']).
    apply stationary_optimal; [lra|lra|]. apply (normal_equations D F 1 (1 / alphaSq) X (fun d => lmda d k) (outer Q P U Y V k) _ omA SA HR').
    intros f Hf. unfold new_A. apply vsum_ext. intros g Hg. rewrite (SA f g Hf Hg). ring.
  Qed.

  (** *** The bases *)
  Lemma base_ok n m (B : mat) S c a N : symm n S -> psd n S -> (0 <= c)%R ->
    is_inverse n (fun q r => vsum m (fun f => B q f * B r f) + c * S q r)%R N ->
    is_inverse n N (fun q r => vsum m (fun f => B q f * B r f) + c * S q r)%R ->
    forall b, (ridge m n (fun f q => B q f) (fun q r => c * S q r)%R a (fun q => vsum n (fun r => vsum m (fun f => a f * B r f) * N r q)%R)
               <= ridge m n (fun f q => B q f) (fun q r => c * S q r)%R a b)%R.
  Proof.
    clear. intros SS PS Hc HR HL. set (M := fun q r => (vsum m (fun f => B q f * B r f) + c * S q r)%R) in *.
    assert (SM : symm n M). { intros i j Hi Hj. unfold M. rewrite (SS i j Hi Hj). f_equal. apply vsum_ext. intros; ring. }
    pose proof (inverse_symm n M N SM HR HL) as SN. set (x := fun r => vsum m (fun f => a f * B r f)%R).
    set (u := fun q => vsum n (fun r => x r * N r q)%R).
    apply ridge_optimal; [intros i j Hi Hj; rewrite (SS i j Hi Hj); reflexivity|apply scaled_psd; assumption|].
    intros q Hq. change (vsum m (fun d => B q d * (a d - vsum n (fun g => B g d * u g)))%R = vsum n (fun g => c * S q g * u g)%R).
    assert (E : vsum n (fun r => M q r * u r)%R = x q).
    { rewrite (vsum_ext n _ (fun r => M q r * vsum n (fun s => N r s * x s))%R); [apply is_inverse_vec; assumption|].
      intros r Hr. f_equal. unfold u. apply vsum_ext. intros s Hs. rewrite (SN s r Hs Hr). ring. }
    unfold M in E. rewrite (vsum_ext n _ (fun r => vsum m (fun f => B q f * (B r f * u r)) + c * S q r * u r)%R) in E.
    2:{ intros r _. rewrite Rmult_plus_distr_r, <- vsum_scale_r. f_equal. apply vsum_ext. intros; ring. }
    rewrite vsum_plus, (vsum_swap n m (fun r f => B q f * (B r f * u r))%R) in E.
    rewrite (vsum_ext m (fun d => B q d * (a d - vsum n (fun g => B g d * u g)))%R (fun f => a f * B q f - B q f * vsum n (fun r => B r f * u r))%R) by (intros; ring).
    rewrite vsum_minus. fold (x q). rewrite (vsum_ext m (fun f => B q f * vsum n (fun r => B r f * u r))%R (fun f => vsum n (fun r => B q f * (B r f * u r)))%R) by (intros; rewrite vsum_scale; reflexivity).
    lra.
  Qed.
  Lemma trace_nonneg n m O M : psd n O -> (0 <= vsum n (fun p => vsum n (fun r => O p r * gram m M r p)))%R.
  Proof.
    clear. intros HO. replace (vsum n (fun p => vsum n (fun r => O p r * gram m M r p))%R) with (vsum m (fun f => quad n O (M f) (M f))); [apply vsum_nonneg; intros; apply HO|].
    unfold quad. rewrite (vsum_swap m n (fun f i => vsum n (fun j => M f i * O i j * M f j)%R)). apply vsum_ext. intros i _.
    rewrite (vsum_swap m n (fun f j => M f i * O i j * M f j)%R). apply vsum_ext. intros j _. unfold gram. rewrite <- vsum_scale. apply vsum_ext. intros; ring.
  Qed.
End maps.

(** ** Words: expectation maximisation without a prior *)
Section words.
  Variables (K T D : nat) (W M : mat).
  Hypothesis HK : 0 < K.
  Hypothesis HW : forall d t, d < D -> t < T -> (0 <= W d t)%R.
  Definition occurs (t : nat) : Prop := t < T /\ exists d, d < D /\ (0 < W d t)%R.
  Hypothesis HO : exists t, occurs t.
  (** Weights of the words of each topic, positive for the words that occur. *)
  Definition weights (v : mat) : Prop := forall k, k < K -> (forall t, t < T -> (0 <= v k t)%R) /\ (forall t, occurs t -> (0 < v k t)%R).
  Definition distributions (v : mat) : Prop := forall k, k < K -> (forall t, t < T -> (0 <= v k t)%R) /\ vsum T (v k) = 1%R.
  Let e : mat := fun d k => exp (M d k).
  Let share (v : mat) (d t k : nat) : R := (exp (M d k) * v k t / mass K v (M d) t)%R.
  Let tally (v : mat) : mat := fun k t => (v k t * vsum D (fun d => quotient K W e v d t * e d k))%R.

  Lemma tally_is v k t : tally v k t = vsum D (fun d => W d t * share v d t k)%R.
  Proof. unfold tally. rewrite <- vsum_scale. apply vsum_ext. intros d _. unfold share, quotient, mass, e, Rdiv. ring. Qed.
  Lemma mass_positive v d t : weights v -> occurs t -> (0 < mass K v (M d) t)%R.
  Proof.
    clear HO. intros Hv Ht. apply vsum_pos; [exact HK|]. intros k Hk. apply Rmult_lt_0_compat; [apply exp_pos|apply Hv; assumption].
  Qed.
  Lemma tally_pos v k t : weights v -> k < K -> occurs t -> (0 < tally v k t)%R.
  Proof.
    clear HO. intros Hv Hk Ht. rewrite tally_is. pose proof Ht as [HT [d [Hd Hp]]]. apply (vsum_pos_one D _ d Hd).
    - intros j Hj. apply Rmult_le_pos; [apply HW; assumption|]. left. apply Rdiv_lt_0_compat; [apply Rmult_lt_0_compat; [apply exp_pos|apply Hv; assumption]|apply mass_positive; assumption].
    - apply Rmult_lt_0_compat; [exact Hp|]. apply Rdiv_lt_0_compat; [apply Rmult_lt_0_compat; [apply exp_pos|apply Hv; assumption]|apply mass_positive; assumption].
  Qed.
  Lemma tally_absent v k t : t < T -> ~ occurs t -> tally v k t = 0%R.
  Proof.
    clear HO. intros Ht HN. rewrite tally_is. rewrite (vsum_ext D _ (fun _ => 0%R)); [apply vsum_zero|]. intros d Hd.
    destruct (HW d t Hd Ht) as [P0|<-]; [|ring]. exfalso. apply HN. split; [exact Ht|exists d; split; assumption].
  Qed.
  Lemma occurs_dec t : occurs t \/ ~ occurs t.
  Proof. apply Classical_Prop.classic. Qed.
  Lemma tally_nonneg v k t : weights v -> k < K -> t < T -> (0 <= tally v k t)%R.
  Proof. clear HO. intros Hv Hk Ht. destruct (occurs_dec t) as [Ho|Ho]; [left; apply tally_pos; assumption|]. rewrite tally_absent by assumption. lra. Qed.
  Lemma tally_total v k : weights v -> k < K -> (0 < vsum T (tally v k))%R.
  Proof.
    intros Hv Hk. destruct HO as [t Ht]. apply (vsum_pos_one T _ t (proj1 Ht)); [intros; apply tally_nonneg; assumption|apply tally_pos; assumption].
  Qed.
  Lemma vocab_is v k t : new_vocab K T D W e v k t = (tally v k t / vsum T (tally v k))%R.
  Proof. reflexivity. Qed.
  Lemma vocab_weights v : weights v -> weights (new_vocab K T D W e v).
  Proof.
    intros Hv k Hk. pose proof (tally_total v k Hv Hk) as HS. split; intros t Ht; rewrite vocab_is.
    - apply Rmult_le_pos; [apply tally_nonneg; assumption|left; apply Rinv_0_lt_compat; exact HS].
    - apply Rdiv_lt_0_compat; [apply tally_pos; assumption|exact HS].
  Qed.
  Lemma vocab_distributions v : weights v -> distributions (new_vocab K T D W e v).
  Proof.
    intros Hv k Hk. split; [apply (vocab_weights v Hv k Hk)|]. pose proof (tally_total v k Hv Hk) as HS.
    unfold new_vocab, norm_rows, Rdiv. rewrite vsum_scale_r. apply Rinv_r. apply Rgt_not_eq. exact HS.
  Qed.
  Lemma like_word v d t : weights v -> occurs t ->
    ln (vsum K (fun k => softmax K (M d) k * v k t))%R = (ln (mass K v (M d) t) - ln (vsum K (fun k => exp (M d k))))%R.
  Proof.
    clear HO. intros Hv Ht. pose proof (mass_positive v d t Hv Ht) as H1. pose proof (exps_pos K HK (M d)) as H2.
    replace (vsum K (fun k => softmax K (M d) k * v k t)%R) with (mass K v (M d) t * / vsum K (fun k => exp (M d k)))%R.
    - rewrite ln_mult, ln_Rinv by (try apply Rinv_0_lt_compat; assumption). ring.
    - unfold mass. rewrite <- vsum_scale_r. apply vsum_ext. intros k _. unfold softmax, Rdiv. ring.
  Qed.
  Lemma vocab_grows v : weights v -> (forall k, k < K -> (vsum T (v k) <= 1)%R) ->
    (vsum D (fun d => log_like K T v (W d) (M d)) <= vsum D (fun d => log_like K T (new_vocab K T D W e v) (W d) (M d)))%R.
  Proof.
    intros Hv H1. set (v' := new_vocab K T D W e v). pose proof (vocab_weights v Hv) as Hv'. fold v' in Hv'.
    set (x := fun k t => (ln (v' k t) - ln (v k t))%R).
    assert (A : (vsum D (fun d => vsum T (fun t => vsum K (fun k => W d t * share v d t k * x k t)))
       <= vsum D (fun d => log_like K T v' (W d) (M d)) - vsum D (fun d => log_like K T v (W d) (M d)))%R).
    { rewrite <- vsum_minus. apply vsum_le. intros d Hd. unfold log_like. rewrite <- vsum_minus. apply vsum_le. intros t Ht.
      rewrite <- Rmult_minus_distr_l. rewrite (vsum_ext K _ (fun k => W d t * (share v d t k * x k t))%R) by (intros; ring). rewrite vsum_scale.
      destruct (HW d t Hd Ht) as [P0|<-]; [|lra]. assert (Ho : occurs t) by (split; [exact Ht|exists d; split; assumption]).
      apply Rmult_le_compat_l; [lra|]. rewrite !like_word by assumption.
      pose proof (jensen_ratio K (fun k => exp (M d k) * v k t)%R (fun k => x k t)) as J. cbv beta in J. fold (mass K v (M d) t) in J.
      assert (L : (vsum K (fun k => share v d t k * x k t) <= ln (mass K v' (M d) t) - ln (mass K v (M d) t))%R); [|lra].
      refine (Rle_trans _ _ _ (J _ (mass_positive v d t Hv Ho)) _).
      - intros k Hk. apply Rmult_le_pos; [left; apply exp_pos|apply Hv; assumption].
      - right. do 2 f_equal. apply vsum_ext. intros k Hk. pose proof (proj2 (Hv k Hk) t Ho). pose proof (proj2 (Hv' k Hk) t Ho).
        unfold x, Rminus. rewrite exp_plus, exp_Ropp, !exp_ln by assumption. field. lra. }
    assert (B : vsum D (fun d => vsum T (fun t => vsum K (fun k => W d t * share v d t k * x k t)))%R = vsum K (fun k => vsum T (fun t => tally v k t * x k t))%R).
    { rewrite (vsum_ext D _ (fun d => vsum K (fun k => vsum T (fun t => W d t * share v d t k * x k t)))%R)
        by (intros d _; apply (vsum_swap T K (fun t k => W d t * share v d t k * x k t)%R)).
      rewrite (vsum_swap D K (fun d k => vsum T (fun t => W d t * share v d t k * x k t)%R)). apply vsum_ext. intros k _.
      rewrite (vsum_swap D T (fun d t => W d t * share v d t k * x k t)%R). apply vsum_ext. intros t _. rewrite vsum_scale_r, tally_is. reflexivity. }
    assert (C : (0 <= vsum K (fun k => vsum T (fun t => tally v k t * x k t)))%R); [|rewrite B in A; lra].
    apply vsum_nonneg. intros k Hk. pose proof (tally_total v k Hv Hk) as HS.
    apply (Rle_trans _ (vsum T (fun t => tally v k t - vsum T (tally v k) * v k t))%R).
    - rewrite vsum_minus, vsum_scale. pose proof (H1 k Hk). nra.
    - apply vsum_le. intros t Ht. destruct (occurs_dec t) as [Ho|Ho].
      + pose proof (tally_pos v k t Hv Hk Ho) as HT. pose proof (proj2 (Hv k Hk) t Ho) as P0. pose proof (proj2 (Hv' k Hk) t Ho) as P1.
        pose proof (ln_le_sub1 (v k t / v' k t) ltac:(apply Rdiv_lt_0_compat; assumption)) as L. unfold Rdiv in L at 1.
        rewrite ln_mult, ln_Rinv in L by (try apply Rinv_0_lt_compat; assumption).
        replace (vsum T (tally v k) * v k t)%R with (tally v k t * (v k t / v' k t))%R.
        2:{ unfold v'. rewrite vocab_is. field. split; lra. }
        unfold x. nra.
      + rewrite (tally_absent v k t Ht Ho). pose proof (proj1 (Hv k Hk) t Ht). nra.
  Qed.
End words.

(** ** When the bound is measured *)
Fixpoint spaced (f : nat -> Z) (seen : list nat) : Prop :=
  match seen with
  | x :: ((y :: _) as r) => Z.of_nat x = f y /\ spaced f r
  | _ => True
  end.
Fixpoint falling (l : list nat) : Prop := match l with x :: ((y :: _) as r) => y < x /\ falling r | _ => True end.
Lemma ceil_above x : (x <= IZR (ceil x))%R.
Proof. unfold ceil. rewrite opp_IZR. pose proof (base_Int_part (- x)). lra. Qed.
Lemma ceil_below x : (IZR (ceil x) < x + 1)%R.
Proof. unfold ceil. rewrite opp_IZR. pose proof (base_Int_part (- x)). lra. Qed.
Lemma ceil_of x z : (IZR z - 1 < x <= IZR z)%R -> ceil x = z.
Proof.
  intros H. pose proof (ceil_above x). pose proof (ceil_below x).
  assert (z - 1 < ceil x)%Z by (apply lt_IZR; rewrite minus_IZR; lra). assert (ceil x < z + 1)%Z by (apply lt_IZR; rewrite plus_IZR; lra). lia.
Qed.
Definition root (n logs : nat) : R := Rpower (INR n) (1 / INR logs).
Lemma root_above n logs : 2 <= n -> 1 <= logs -> (1 < root n logs)%R.
Proof.
  intros Hn Hl. unfold root. assert (Hr : (1 < INR n)%R) by (apply (lt_INR 1); lia). assert (Hq : (0 < INR logs)%R) by (apply lt_0_INR; lia).
  apply (Rle_lt_trans _ (Rpower (INR n) 0)); [rewrite Rpower_O by lra; lra|]. apply Rpower_lt; [exact Hr|]. apply Rdiv_lt_0_compat; lra.
Qed.
Lemma root_pow n logs : 2 <= n -> 1 <= logs -> (root n logs ^ logs = INR n)%R.
Proof.
  intros Hn Hl. unfold root. assert (Hr : (1 < INR n)%R) by (apply (lt_INR 1); lia). assert (Hq : (0 < INR logs)%R) by (apply lt_0_INR; lia).
  rewrite <- Rpower_pow by (apply exp_pos). rewrite Rpower_mult. replace (1 / INR logs * INR logs)%R with 1%R by (field; lra). apply Rpower_1. lra.
Qed.

Section schedule.
  Variables K Q F P T D : nat.
  Variables sigmaSq alphaSq kappaSq tauSq : R.
  Variable inv : nat -> mat -> option mat.
  Variable pinv : mat -> mat.
  Variable sylvester : mat -> mat -> mat -> mat.
  Variable solve : mat -> vec -> vec.
  Variables (plan : old_plan) (elbo : nat -> uyv -> res R) (W X : mat).
  Notation iter := (uyv_iter K Q F P T D sigmaSq alphaSq kappaSq tauSq inv pinv sylvester solve (p_fast plan) W X).
  Notation loop := (uyv_loop K Q F P T D sigmaSq alphaSq kappaSq tauSq inv pinv sylvester solve plan).

  (** What every iteration keeps, the loop keeps. *)
  Lemma loop_keeps (I : uyv -> mat -> Prop) step : (forall s e s' e', I s e -> iter s e = Ok (s', e') -> I s' e') ->
    forall todo iteration logIter last seen s e s' e' seen', I s e -> loop step elbo W X iteration todo logIter last seen s e = Ok (s', e', seen') -> I s' e'.
  Proof.
    intros HI. induction todo as [|todo IH]; intros iteration logIter last seen s e s' e' seen' H E; cbn [uyv_loop] in E.
    - injection E as <- <- <-. exact H.
    - destruct (iter s e) as [[s1 e1]|x] eqn:E1; cbn [bind] in E; [|discriminate]. pose proof (HI s e s1 e1 H E1) as H1.
      destruct (Z.of_nat iteration =? logIter)%Z; [|apply (IH _ _ _ _ _ _ _ _ _ H1 E)].
      destruct (elbo iteration s1) as [b|x]; cbn [bind] in E; [|discriminate]. cbv zeta in E.
      destruct (_ && _); [injection E as <- <- <-; exact H1|apply (IH _ _ _ _ _ _ _ _ _ H1 E)].
  Qed.
  (** If every iteration and measurement succeeds, so does the loop. *)
  Lemma loop_succeeds step : (forall s e, exists r, iter s e = Ok r) -> (forall i s, exists b, elbo i s = Ok b) ->
    forall todo iteration logIter last seen s e, exists r, loop step elbo W X iteration todo logIter last seen s e = Ok r.
  Proof.
    intros HI HE. induction todo as [|todo IH]; intros iteration logIter last seen s e; cbn [uyv_loop]; [eexists; reflexivity|].
    destruct (HI s e) as [[s1 e1] E1]. rewrite E1. cbn [bind].
    destruct (Z.of_nat iteration =? logIter)%Z; [|apply IH].
    destruct (HE iteration s1) as [b Eb]. rewrite Eb. cbn [bind]. cbv zeta. destruct (_ && _); [eexists; reflexivity|apply IH].
  Qed.

  Hypothesis Hn : 2 <= p_iterations plan.
  Hypothesis Hl : 1 <= p_logs plan.
  Hypothesis He : (p_epsilon plan <= 0)%R.
  Notation n := (p_iterations plan).
  Notation step := (root (p_iterations plan) (p_logs plan)).
  Definition next (x : nat) : Z := Z.min (ceil (INR x * step)) (Z.of_nat n - 1).

  Lemma next_above x : 1 <= x -> x < n - 1 -> (Z.of_nat x < next x)%Z.
  Proof.
    clear He. intros H1 H2. unfold next. pose proof (root_above n (p_logs plan) Hn Hl) as Hs. pose proof (ceil_above (INR x * step)).
    assert (1 <= INR x)%R by (apply (le_INR 1); exact H1). assert (Z.of_nat x < ceil (INR x * step))%Z by (apply lt_IZR; rewrite <- INR_IZR_INZ; nra). lia.
  Qed.

  Lemma loop_measures : forall todo iteration logIter last seen s e s' e' seen',
    iteration + todo = n -> 1 <= todo -> (Z.of_nat iteration <= logIter <= Z.of_nat n - 1)%Z -> (1 <= logIter)%Z ->
    falling seen -> Forall (fun x => x < iteration) seen -> length seen <= p_logs plan ->
    (step ^ length seen <= IZR logIter)%R \/ logIter = (Z.of_nat n - 1)%Z ->
    spaced next seen -> match seen with [] => logIter = 1%Z | x :: _ => logIter = next x /\ List.last seen 0 = 1 end ->
    loop step elbo W X iteration todo logIter last seen s e = Ok (s', e', seen') ->
    falling seen' /\ length seen' <= p_logs plan + 1 /\ hd 0 seen' = n - 1 /\ List.last seen' 0 = 1 /\ spaced next seen'.
  Proof.
    induction todo as [|todo IH]; intros iteration logIter last seen s e s' e' seen' H0 H1 H2 H3 Hf HF Hlen Hp Hsp Hm E; [lia|].
    cbn [uyv_loop] in E. destruct (iter s e) as [[s1 e1]|x] eqn:E1; cbn [bind] in E; [|discriminate].
    destruct (Z.eqb_spec (Z.of_nat iteration) logIter) as [Eq|Ne].
    - destruct (elbo iteration s1) as [b|x]; cbn [bind] in E; [|discriminate]. cbv zeta in E.
      assert (Hlt : rltb (Rabs (b - last)) (p_epsilon plan) = false) by (apply rltb_false; pose proof (Rabs_pos (b - last)); lra).
      rewrite Hlt, andb_false_r in E. subst logIter.
      assert (Hf' : falling (iteration :: seen)).
      { destruct seen as [|y r]; [exact I|]. split; [apply (Forall_inv HF)|exact Hf]. }
      assert (Hsp' : spaced next (iteration :: seen)).
      { destruct seen as [|y r]; [exact I|]. split; [apply Hm|exact Hsp]. }
      assert (Hlast : List.last (iteration :: seen) 0 = 1).
      { destruct seen as [|y r]; [cbn [List.last]; lia|]. cbn [List.last]. apply Hm. }
      rewrite <- INR_IZR_INZ in E. fold (next iteration) in E.
      destruct todo as [|todo].
      + cbn [uyv_loop] in E. injection E as _ _ <-. cbn [length hd]. split; [exact Hf'|]. split; [lia|]. split; [lia|]. split; assumption.
      + assert (Hi : iteration < n - 1) by lia. pose proof (next_above iteration ltac:(lia) Hi) as Hnx.
        assert (Hpow : (step ^ length seen <= INR iteration)%R).
        { destruct Hp as [Hp|Hp]; [rewrite INR_IZR_INZ; exact Hp|lia]. }
        assert (Hs : length seen < p_logs plan).
        { destruct (Nat.lt_ge_cases (length seen) (p_logs plan)) as [L|L]; [exact L|]. exfalso. assert (El : length seen = p_logs plan) by lia.
          rewrite El, root_pow in Hpow by assumption. assert (INR iteration < INR n)%R by (apply lt_INR; lia). lra. }
        refine (IH (S iteration) (next iteration) b (iteration :: seen) s1 e1 s' e' seen' _ _ _ _ Hf' _ _ _ Hsp' (conj eq_refl Hlast) E); [lia|lia|split; [lia|unfold next; lia]|lia| |cbn [length]; lia| ].
        * constructor; [lia|]. apply (Forall_impl (fun x => x < S iteration) (P := fun x => x < iteration)); [intros; lia|exact HF].
        * unfold next. destruct (Z.min_spec (ceil (INR iteration * step)) (Z.of_nat n - 1)) as [[_ ->]|[_ ->]]; [left|right; reflexivity].
          cbn [length pow]. pose proof (ceil_above (INR iteration * step)). pose proof (root_above n (p_logs plan) Hn Hl). nra.
    - refine (IH (S iteration) logIter last seen s1 e1 s' e' seen' _ _ _ H3 Hf _ Hlen Hp Hsp Hm E); [lia|lia|lia|].
      apply (Forall_impl (fun x => x < S iteration) (P := fun x => x < iteration)); [intros; lia|exact HF].
  Qed.
End schedule.
