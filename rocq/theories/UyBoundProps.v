(** * Property C290: the bound that sidetopic_uy reports *)
From Coq Require Import List Reals ZArith Arith Bool Lra Lia.
From Verif Require Import Base RealModel RealProofs VbModel VbProofs LinkModel LinkProps CtmModel CtmProofs BouchModel UyvModel OldProps UyvBoundModel UyModel UyBoundModel.
Import ListNotations.
Open Scope nat_scope.

(** A model with another covariance of the topics. *)
Definition with_cov (m : uy) (S : mat) : uy := {| y_A := y_A m; y_varA := y_varA m; y_Y := y_Y m; y_sigY := y_sigY m; y_sigT := S; y_U := y_U m; y_vocab := y_vocab m;
  y_topicVar := y_topicVar m; y_featVar := y_featVar m; y_lowTopicVar := y_lowTopicVar m; y_lowFeatVar := y_lowFeatVar m |}.

Section reported.
  Variables (K F T P D : nat) (tiny least : R) (inv : nat -> mat -> option mat) (det : nat -> mat -> R) (W X : mat).
  (** The scatter of the latent map, of the map from features about its mean, and of the topics
      of the documents about theirs. *)
  Definition scatter (m : uy) (q : uy_query) : mat := fun i j =>
    (1 / y_lowFeatVar m * (1 / y_lowTopicVar m) * vsum P (fun p => y_Y m i p * y_Y m j p)
     + vsum F (fun f => (y_A m i f - vsum P (fun p => y_Y m i p * y_U m f p)) * (y_A m j f - vsum P (fun p => y_Y m j p * y_U m f p)))
     + vsum D (fun d => (ln (y_expLmda q d i) - vsum F (fun f => X d f * y_A m i f)) * (ln (y_expLmda q d j) - vsum F (fun f => X d f * y_A m j f))))%R.
  (** How the logarithm of the density of that many normal vectors depends on the inverse of
      their covariance, and on what should be the logarithm of its determinant. *)
  Definition gaussian (m : uy) (q : uy_query) (isigT : mat) (l : R) : R :=
    (- (INR P + INR F + INR D) / 2 * l - 1 / 2 * vsum K (fun i => vsum K (fun j => isigT i j * scatter m q i j)))%R.

  Lemma pairs n (S Z : mat) : vsum K (fun k => vsum n (fun p => vsum K (fun j => S k j * Z j p) * Z k p))%R = vsum K (fun i => vsum K (fun j => S i j * vsum n (fun p => Z i p * Z j p)))%R.
  Proof.
    apply vsum_ext. intros i _. rewrite (vsum_ext K (fun j => S i j * vsum n (fun p => Z i p * Z j p))%R (fun j => vsum n (fun p => S i j * Z j p * Z i p))%R).
    - rewrite (vsum_swap K n). apply vsum_ext. intros p _. rewrite <- vsum_scale_r. reflexivity.
    - intros j _. rewrite <- vsum_scale. apply vsum_ext. intros; ring.
  Qed.
  Lemma pairs_rows n (S Z : mat) : vsum n (fun d => vsum K (fun k => vsum K (fun j => Z d j * S j k) * Z d k))%R = vsum K (fun i => vsum K (fun j => S i j * vsum n (fun d => Z d i * Z d j)))%R.
  Proof.
    rewrite (vsum_ext K (fun i => vsum K (fun j => S i j * vsum n (fun d => Z d i * Z d j)))%R (fun i => vsum n (fun d => vsum K (fun j => Z d i * S i j * Z d j)))%R).
    - rewrite (vsum_swap K n). apply vsum_ext. intros d _. rewrite (vsum_swap K K). apply vsum_ext. intros j _. rewrite <- vsum_scale_r. reflexivity.
    - intros i _. rewrite (vsum_swap n K). apply vsum_ext. intros j _. rewrite <- vsum_scale. apply vsum_ext. intros; ring.
  Qed.

  (** As a function of the covariance the bound is that density, with the determinant where its
      logarithm should be. *)
  Theorem C290_covariance m q : 2 <= K -> 1 <= P -> exists c, forall S, match inv K S with
    | Some N => uy_bound K F T P D tiny least inv det W X (with_cov m S) q = Ok (gaussian m q N (det K S) + c)%R
    | None => uy_bound K F T P D tiny least inv det W X (with_cov m S) q = Raise LinAlgError
    end.
  Proof.
    intros HK HP.
    exists (- (5 / 10) * (INR K * INR P * ln (2 * PI) + 1 / y_lowFeatVar m * (1 / y_lowTopicVar m) * tr_of P (y_sigY m) * INR K)
      + (- (5 / 10 * INR K * INR F) * ln (2 * PI) - 5 / 10 * INR K * INR F * ln (y_featVar m)
         - 5 / 10 * (1 / y_featVar m * elements P P (y_sigY m) (gram F (y_U m)) + vsum F (fun f => vsum F (fun g => gram D X f g * y_varA m g f)) * INR K))
      + (- (5 / 10) * INR D * ln (2 * PI) - 5 / 10 * (vsum D (fun d => vsum K (y_nu q d)) + INR D * INR K * elements F F (gram D X) (y_varA m)))
      + uy_words K T D tiny W m q
      + 5 / 10 * (INR P * INR K * ln (2 * PI * exp 1) + INR P * ln (Rmax (det P (y_sigY m)) least))
      + 5 / 10 * (INR K * ln (2 * PI * exp 1) + vsum D (fun d => vsum K (fun k => ln (y_nu q d k * y_nu q d k)))))%R.
    intros S. unfold uy_bound, la_inv. cbn [with_cov y_sigT y_A y_Y y_U y_sigY y_varA y_featVar y_lowFeatVar y_lowTopicVar]. destruct (inv K S) as [N|]; cbn [bind]; [|reflexivity].
    replace (P =? K * P) with false by (symmetry; apply Nat.eqb_neq; nia). f_equal.
    change (uy_words K T D tiny W (with_cov m S) q) with (uy_words K T D tiny W m q).
    rewrite (pairs P N (y_Y m)), (pairs F N (fun k f => y_A m k f - vsum P (fun p => y_Y m k p * y_U m f p))%R),
      (pairs_rows D N (fun d k => ln (y_expLmda q d k) - vsum F (fun f => X d f * y_A m k f))%R).
    unfold gaussian, scatter. set (o := (1 / y_lowFeatVar m * (1 / y_lowTopicVar m))%R).
    rewrite (vsum_ext K (fun i => vsum K (fun j => N i j * (o * _ + _ + _)))%R (fun i => o * vsum K (fun j => N i j * vsum P (fun p => y_Y m i p * y_Y m j p))
       + vsum K (fun j => N i j * vsum F (fun f => (y_A m i f - vsum P (fun p => y_Y m i p * y_U m f p)) * (y_A m j f - vsum P (fun p => y_Y m j p * y_U m f p))))
       + vsum K (fun j => N i j * vsum D (fun d => (ln (y_expLmda q d i) - vsum F (fun f => X d f * y_A m i f)) * (ln (y_expLmda q d j) - vsum F (fun f => X d f * y_A m j f)))))%R).
    2:{ intros i _. rewrite <- vsum_scale, <- !vsum_plus. apply vsum_ext. intros; ring. }
    rewrite !vsum_plus, vsum_scale. clearbody o. generalize (1 / y_featVar m)%R. intros. field.
  Qed.
  (** A model of one topic has no bound. *)
  Theorem C290_one_topic_refuted m q N : K = 1 -> inv 1 (y_sigT m) = Some N -> uy_bound K F T P D tiny least inv det W X m q = Raise TypeError.
  Proof. intros -> E. unfold uy_bound, la_inv. rewrite E. cbn [bind]. replace (P =? 1 * P) with true by (symmetry; apply Nat.eqb_eq; lia). reflexivity. Qed.
End reported.

(** Two topics; the covariances are multiples of the identity. *)
Definition inv2 (n : nat) (M : mat) : option mat := Some (fun i j => if i =? j then (1 / M i i)%R else 0%R).
Definition det2 (n : nat) (M : mat) : R := (M 0%nat 0%nat * M 1%nat 1%nat - M 0%nat 1%nat * M 1%nat 0%nat)%R.
Definition still : uy := {| y_A := none; y_varA := none; y_Y := none; y_sigY := eye; y_sigT := eye; y_U := none; y_vocab := one;
  y_topicVar := 1; y_featVar := 1; y_lowTopicVar := 1; y_lowFeatVar := 1 |}.
Definition far : uy_query := {| y_expLmda := fun _ _ => exp 4; y_nu := one; y_lxi := one; y_s := fun _ => 0%R; y_docLen := fun _ => 1%R |}.
Lemma density v l : (0 < v)%R -> gaussian 2 1 1 1 one still far (fun i j => if i =? j then (1 / scalar v i i)%R else 0%R) l = (- (3 / 2) * l - 16 / v)%R.
Proof.
  intros Hv. unfold gaussian, scatter, vsum. cbn [seq map rsum still far y_A y_Y y_U y_lowFeatVar y_lowTopicVar y_expLmda Nat.eqb INR]. unfold none, one, scalar. cbn [Nat.eqb]. rewrite ln_exp. field. lra.
Qed.
Theorem C290_order_refuted : exists K F T P D tiny least inv det W X m q S S' N N' b b', 2 <= K /\ 1 <= P /\ inv K S = Some N /\ inv K S' = Some N' /\
  is_inverse K S N /\ is_inverse K S' N' /\ (0 < det K S)%R /\ (0 < det K S')%R /\
  (gaussian K F P D X m q N (ln (det K S)) < gaussian K F P D X m q N' (ln (det K S')))%R /\
  uy_bound K F T P D tiny least inv det W X (with_cov m S) q = Ok b /\ uy_bound K F T P D tiny least inv det W X (with_cov m S') q = Ok b' /\ (b' < b)%R.
Proof.
  destruct (C290_covariance 2 1 1 1 1 1 1 inv2 det2 one one still far ltac:(lia) ltac:(lia)) as [c H].
  assert (E : forall v, inv2 2 (scalar v) = Some (fun i j => if i =? j then (1 / scalar v i i)%R else 0%R)) by reflexivity.
  pose proof (H (scalar 2)) as H2. pose proof (H (scalar 4)) as H4. rewrite E in H2, H4. rewrite density in H2, H4 by lra.
  assert (DT : forall v, det2 2 (scalar v) = (v * v)%R) by (intros; unfold det2, scalar; cbn [Nat.eqb]; ring).
  assert (IV : forall v, (0 < v)%R -> is_inverse 2 (scalar v) (fun i j => if i =? j then (1 / scalar v i i)%R else 0%R)).
  { intros v Hv [|[|i]] [|[|j]] Hi Hj; try lia; unfold vsum, scalar, eye; cbn [seq map rsum Nat.eqb]; field; lra. }
  eexists 2, 1, 1, 1, 1, 1%R, 1%R, inv2, det2, one, one, still, far, (scalar 2), (scalar 4), _, _, _, _.
  split; [lia|]. split; [lia|]. split; [apply E|]. split; [apply E|]. split; [apply IV; lra|]. split; [apply IV; lra|]. rewrite !DT. split; [lra|]. split; [lra|].
  split. { rewrite !density by lra. replace (4 * 4)%R with (2 * 2 * (2 * 2))%R by ring. rewrite !ln_mult by lra. assert (ln 2 < 1)%R; [|lra].
    replace 1%R with (ln (exp 1)) at 1 by apply ln_exp. apply ln_increasing; [lra|]. pose proof (exp_ineq1 1 ltac:(lra)). lra. }
  split; [exact H2|]. split; [exact H4|]. rewrite !DT. lra.
Qed.
Example C290_case : gaussian 2 1 1 1 one still far (fun i j => if i =? j then (1 / scalar 4 i i)%R else 0%R) (ln 16) = (- (3 / 2) * ln 16 - 4)%R /\ inv2 1 (y_sigT still) <> None.
Proof. split; [rewrite density by lra; lra|discriminate]. Qed.

Print Assumptions C290_covariance.
Print Assumptions C290_one_topic_refuted.
Print Assumptions C290_order_refuted.
