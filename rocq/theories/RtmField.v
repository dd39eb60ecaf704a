(** * C125 for the relational topic model: the update of a document is the mean-field
    update of LDA with the gradient of the log-likelihood of the links. *)
From Coq Require Import List Reals ZArith Arith Bool Lra Lia.
From Verif Require Import Base RealModel RealProofs MixModel MixProofs MixProps VbModel VbProofs VbProps VbField RtmModel RtmProps.
Import ListNotations.
Open Scope nat_scope.

(** ** Specification *)
Section Spec.
  Context (psi probit : R -> R) (c : R) (K T : nat).
  (** The log-likelihood of the links of a document with mean [md]. *)
  Definition links_likelihood (weights : vec) (means : mat) (linked : list nat) (md : vec) : R :=
    rsum (map (fun l => ln (probit (vsum (S K) (fun j => md j * means l j * weights j)) + c))%R linked).
  (** The mean when the probability of topic [k] for one of [len] tokens changes by
      [x]. *)
  Definition shifted (md : vec) (len : R) (k : nat) (x : R) : vec :=
    fun j => if j =? k then (md j + x / len)%R else md j.
  (** The distribution over topics of the word [t]; [g k] is the gradient. *)
  Definition link_responsibility (word : mat) (prior : vec) (len : R) (mean g : vec) (k t : nat) : R :=
    let e := fun j => exp (psi (word j t) - psi (vsum T (word j)) + psi (prior j + len * mean j) + g j)%R in
    (e k / vsum K e)%R.
End Spec.

Lemma derivable_rsum (f : nat -> R -> R) (f' : nat -> R) x l :
  (forall i, In i l -> derivable_pt_lim (f i) x (f' i)) ->
  derivable_pt_lim (fun y => rsum (map (fun i => f i y) l)) x (rsum (map f' l)).
Proof.
  induction l as [|i l IH]; intros H; cbn [map rsum].
  - apply derivable_pt_lim_const.
  - apply (derivable_pt_lim_plus (f i) (fun y => rsum (map (fun i => f i y) l))).
    + apply H. left. reflexivity.
    + apply IH. intros j Hj. apply H. right. exact Hj.
Qed.

Lemma shifted_sum n (md v : vec) len k x : k < n ->
  vsum n (fun j => shifted md len k x j * v j)%R = (vsum n (fun j => md j * v j) + x / len * v k)%R.
Proof.
  intros Hk. rewrite (vsum_ext n _ (fun j => md j * v j + (if j =? k then x / len * v k else 0))%R).
  2:{ intros j _. unfold shifted. destruct (Nat.eqb_spec j k) as [->|]; ring. }
  rewrite vsum_plus. f_equal. unfold vsum.
  assert (E : forall l, NoDup l -> rsum (map (fun j => if j =? k then x / len * v k else 0)%R l) = if in_dec Nat.eq_dec k l then (x / len * v k)%R else 0%R).
  { induction l as [|j l IH]; intros N; [reflexivity|]. inversion N as [|? ? Nj Nl]; subst. cbn [map rsum]. rewrite (IH Nl).
    destruct (Nat.eqb_spec j k) as [->|NE].
    - destruct (in_dec Nat.eq_dec k l); [contradiction|]. destruct (in_dec Nat.eq_dec k (k :: l)) as [_|nn]; [ring|]. exfalso. apply nn. left. reflexivity.
    - destruct (in_dec Nat.eq_dec k l) as [I|I]; destruct (in_dec Nat.eq_dec k (j :: l)) as [J|J]; try ring.
      + exfalso. apply J. right. exact I.
      + exfalso. destruct J as [J|J]; [congruence|contradiction]. }
  rewrite E by apply seq_NoDup. destruct (in_dec Nat.eq_dec k (seq 0 n)) as [_|N]; [reflexivity|]. exfalso. apply N, in_seq. lia.
Qed.

(** The term added to the scores is the derivative of the log-likelihood of the
    document's links with respect to the probability of topic [k] for one token. *)
Theorem C125_links_pull_by_their_gradient pdf probit c K len weights means linked d k :
  (forall y, derivable_pt_lim probit y (pdf y)) -> (forall y, (0 < probit y + c)%R) -> len <> 0%R -> k < K ->
  derivable_pt_lim (fun x => links_likelihood probit c K weights means linked (shifted (means d) len k x)) 0
    (link_score pdf probit c K len linked weights means d k).
Proof.
  intros Hpdf Hpos Hlen Hk. unfold links_likelihood, link_score.
  apply (derivable_rsum (fun l x => ln (probit (vsum (S K) (fun j => shifted (means d) len k x j * means l j * weights j)) + c))%R
           (fun l => let param := vsum (S K) (fun j => means d j * means l j * weights j)%R in
                     (pdf param / (probit param + c) / len * (weights k * means l k))%R)).
  intros l _. cbv zeta. set (a := vsum (S K) (fun j => means d j * means l j * weights j)%R). set (b := (/ len * (means l k * weights k))%R).
  assert (E : forall x, vsum (S K) (fun j => shifted (means d) len k x j * means l j * weights j)%R = (a + b * x)%R).
  { intros x. rewrite (vsum_ext (S K) _ (fun j => shifted (means d) len k x j * (means l j * weights j))%R) by (intros; ring).
    rewrite shifted_sum by lia. unfold a, b. rewrite (vsum_ext (S K) (fun j => means d j * means l j * weights j)%R (fun j => means d j * (means l j * weights j))%R) by (intros; ring).
    field. exact Hlen. }
  assert (Hlin : derivable_pt_lim (fun x => a + b * x)%R 0 b).
  { assert (X : derivable_pt_lim (fun x => a + b * x)%R 0 (0 + b * 1)%R); [|replace (0 + b * 1)%R with b in X by ring; exact X].
    apply (derivable_pt_lim_plus (fun _ => a) (fun x => b * x)%R); [apply derivable_pt_lim_const|].
    apply (derivable_pt_lim_scal (fun x => x) b). apply derivable_pt_lim_id. }
  assert (Hp : derivable_pt_lim (fun x => probit (a + b * x) + c)%R 0 (pdf a * b + 0)%R).
  { apply (derivable_pt_lim_plus (fun x => probit (a + b * x))%R (fun _ => c)); [|apply derivable_pt_lim_const].
    apply (derivable_pt_lim_comp (fun x => a + b * x)%R probit); [exact Hlin|].
    replace (a + b * 0)%R with a by ring. apply Hpdf. }
  assert (Hl : derivable_pt_lim (fun x => ln (probit (a + b * x) + c))%R 0 (/ (probit a + c) * (pdf a * b + 0))%R).
  { apply (derivable_pt_lim_comp (fun x => probit (a + b * x) + c)%R ln); [exact Hp|].
    replace (a + b * 0)%R with a by ring. apply derivable_pt_lim_ln. apply Hpos. }
  replace (pdf a / (probit a + c) / len * (weights k * means l k))%R with (/ (probit a + c) * (pdf a * b + 0))%R.
  - intros eps He. destruct (Hl eps He) as [del Hd]. exists del. intros h Hh Hh'. rewrite !E. apply Hd; assumption.
  - unfold b. specialize (Hpos a). field. split; [lra|exact Hlen].
Qed.

(** One document: its topics and the word parameters. *)
Theorem C125_relational_update psi pdf probit c K T (docs : list words) docLens links word weights prior means grad d (doc : words) linked :
  0 < K -> nth_error docs d = Some doc -> NoDup (map fst doc) -> Forall (fun e => fst e < T) doc ->
  nth_error links d = Some linked -> Forall (fun l => l < length docs) linked ->
  let r := link_responsibility psi K T word prior (docLens d) (means d) (link_score pdf probit c K (docLens d) linked weights means d) in
  exists means' grad', rtm_visit psi pdf probit c K T docs docLens links word weights prior (means, grad) d = Ok (means', grad') /\
    (forall k t, k < K -> grad' k t = (grad k t + count doc t * r k t)%R) /\
    (forall k, k < K -> means' d k = (vsum T (fun t => count doc t * r k t) / docLens d)%R) /\
    (forall i k, i <> d \/ K <= k -> means' i k = means i k).
Proof.
  intros HK ED ND FT EL FL r. unfold rtm_visit, get_. rewrite ED, EL. cbn [bind].
  assert (forallb (fun l => l <? length docs) linked = true) as ->.
  { apply forallb_forall. rewrite Forall_forall in FL. intros l Hl. apply Nat.ltb_lt, FL, Hl. }
  set (g := link_score pdf probit c K (docLens d) linked weights means d) in *.
  set (zr := fun t => softmax_of (rtm_scores psi K (docLens d) (means d) prior g (fun k t => psi (word k t)) (fun k => psi (vsum T (word k))) t)).
  assert (E : rtm_infer psi K doc (docLens d) (means d) prior g (fun k t => psi (word k t)) (fun k => psi (vsum T (word k))) = Ok (map (fun e => zr (fst e)) doc)).
  { unfold rtm_infer. clear -HK. induction doc as [|e doc IH]; [reflexivity|]. cbn [mapM map].
    rewrite softmax_row_spec by (unfold rtm_scores; destruct K; [lia|discriminate]). cbn [bind]. rewrite IH. reflexivity. }
  rewrite E. cbn [bind]. do 2 eexists. split; [reflexivity|].
  assert (Hz : forall t k, k < K -> nth k (zr t) 0%R = r k t).
  { intros t k Hk. unfold zr, rtm_scores. rewrite (softmax_nth (fun j => psi (word j t) - psi (vsum T (word j)) + psi (prior j + docLens d * means d j) + g j)%R) by exact Hk. reflexivity. }
  split; [|split].
  - intros k t Hk. apply (add_words_exact K zr r Hz doc grad k t Hk ND).
  - intros k Hk. unfold set_topics. rewrite Nat.eqb_refl, (proj2 (Nat.ltb_lt k K) Hk). cbn [andb]. apply (new_mean_exact K T zr r Hz doc _ k Hk FT).
  - intros i k H. unfold set_topics. assert ((i =? d) && (k <? K) = false) as -> by lia. reflexivity.
Qed.

(** Without links it is the update of LDA. *)
Theorem C125_unlinked_documents_as_in_lda psi pdf probit c K T docLens prior word weights means d k t :
  link_responsibility psi K T word prior (docLens d) (means d) (link_score pdf probit c K (docLens d) [] weights means d) k t =
  responsibility psi K T docLens prior word d (means d) k t.
Proof.
  unfold link_responsibility, responsibility, link_score. cbv zeta. cbn [map rsum].
  rewrite Rplus_0_r. f_equal. apply vsum_ext. intros j _. rewrite Rplus_0_r. reflexivity.
Qed.

(** A document of one token linked to another, with the identity for [probit]. *)
Example C125_link_case :
  link_score (fun _ => 1%R) (fun x => x) 2 1 1 [1] (fun _ => 1%R) (fun _ _ => 1%R) 0 0 = (/ 4)%R.
Proof. unfold link_score, vsum. cbn [seq map rsum]. field. Qed.

Print Assumptions C125_links_pull_by_their_gradient.
Print Assumptions C125_relational_update.
Print Assumptions C125_unlinked_documents_as_in_lda.
