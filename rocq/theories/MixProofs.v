(** * Lemmas about likelihoods and the mixture of multinomials. *)
From Coq Require Import List Reals Arith Bool Lra Lia.
From Verif Require Import Base RealModel RealProofs MixModel.
Import ListNotations.
Open Scope R_scope.

(** ** Specification *)
Fixpoint rprod (l : list R) : R := match l with [] => 1 | x :: r => x * rprod r end.
(** The probability of the words of a document, in their order, under one distribution. *)
Fixpoint words_prob (doc : list nat) (p : list R) : R :=
  match doc, p with n :: doc, x :: p => x ^ n * words_prob doc p | _, _ => 1 end.
(** Under a mixture. *)
Fixpoint mix_prob (doc : list nat) (theta : list R) (phi : list (list R)) : R :=
  match theta, phi with w :: theta, p :: phi => w * words_prob doc p + mix_prob doc theta phi | _, _ => 0 end.
Definition admix (theta : list R) (phi : list (list R)) (T : nat) : list R :=
  map (fun t => dot theta (col phi t)) (seq 0 T).

Lemma words_prob_pos : forall doc p, Forall (fun x => 0 < x) p -> 0 < words_prob doc p.
Proof.
  induction doc as [|n doc IH]; intros [|x p] H; cbn; try lra.
  inversion H; subst. apply Rmult_lt_0_compat; [apply pow_lt; assumption|auto].
Qed.
Lemma words_prob_le1 : forall doc p, Forall (fun x => 0 <= x <= 1) p -> 0 <= words_prob doc p <= 1.
Proof.
  induction doc as [|n doc IH]; intros [|x p] H; cbn; try lra.
  inversion H; subst. specialize (IH p H3).
  assert (0 <= x ^ n <= 1).
  { split; [apply pow_le; lra|]. rewrite <- (pow1 n). apply pow_incr; assumption. }
  split; [apply Rmult_le_pos; lra|].
  apply Rle_trans with (1 * 1); [apply Rmult_le_compat; lra|lra].
Qed.
Lemma mix_prob_pos : forall doc theta phi, Forall (fun x => 0 < x) theta ->
  Forall (Forall (fun x => 0 < x)) phi -> theta <> [] -> length theta = length phi -> 0 < mix_prob doc theta phi.
Proof.
  intros doc theta. induction theta as [|w theta IH]; intros [|p phi] Ht Hp N L; cbn in *; try congruence; try discriminate.
  inversion Ht; inversion Hp; subst.
  assert (0 < w * words_prob doc p) by (apply Rmult_lt_0_compat; [assumption|apply words_prob_pos; assumption]).
  destruct theta as [|w' theta].
  - destruct phi; cbn; lra.
  - assert (0 < mix_prob doc (w' :: theta) phi) by (apply IH; auto; congruence). lra.
Qed.
Lemma mix_prob_le : forall doc theta phi, Forall (fun x => 0 <= x) theta ->
  Forall (Forall (fun x => 0 <= x <= 1)) phi -> 0 <= mix_prob doc theta phi <= rsum theta.
Proof.
  intros doc theta. induction theta as [|w theta IH]; intros [|p phi] Ht Hp; cbn; try lra.
  - assert (0 <= rsum (w :: theta)). { clear - Ht. induction (w :: theta); cbn; [lra|]. inversion Ht; subst. specialize (IHl H2). lra. }
    cbn in H. lra.
  - inversion Ht; inversion Hp; subst. specialize (IH phi H2 H6).
    pose proof (words_prob_le1 doc p H5).
    assert (0 <= w * words_prob doc p <= w * 1).
    { split; [apply Rmult_le_pos; lra|apply Rmult_le_compat_l; lra]. } lra.
Qed.

(** ** Logs *)
Lemma safe_log_above : forall a x, 0 < a -> Forall (fun v => a <= v) x -> safe_log a x = map ln x.
Proof.
  intros a x A H. unfold safe_log. apply map_ext_in. intros v I.
  rewrite Forall_forall in H. specialize (H v I). destruct (rleb a v) eqn:E; [reflexivity|].
  apply rleb_false in E. lra.
Qed.

Lemma ln_pow' : forall x n, 0 < x -> ln (x ^ n) = INR n * ln x.
Proof.
  intros x n H. induction n as [|n IH]; [cbn; rewrite ln_1; lra|].
  rewrite S_INR. cbn [pow]. rewrite ln_mult, IH by (auto using pow_lt). lra.
Qed.

Lemma dot_counts_ln : forall doc p, length doc = length p -> Forall (fun x => 0 < x) p ->
  dot (counts doc) (map ln p) = ln (words_prob doc p).
Proof.
  unfold dot, counts. induction doc as [|n doc IH]; intros [|x p] L H; cbn in *; try discriminate.
  - rewrite ln_1. reflexivity.
  - inversion H; subst. rewrite ln_mult by (auto using pow_lt, words_prob_pos).
    rewrite ln_pow' by assumption. rewrite IH; auto.
Qed.

Lemma expsum_mix : forall doc theta phi, Forall (fun x => 0 < x) theta ->
  Forall (Forall (fun x => 0 < x)) phi -> length theta = length phi ->
  rsum (map exp (add_rows (map (fun p => ln (words_prob doc p)) phi) (map ln theta))) = mix_prob doc theta phi.
Proof.
  intros doc theta. induction theta as [|w theta IH]; intros [|p phi] Ht Hp L; cbn in *; try discriminate; [reflexivity|].
  inversion Ht; inversion Hp; subst. unfold add_rows in IH. rewrite IH by auto.
  rewrite exp_plus, !exp_ln by (auto using words_prob_pos). lra.
Qed.

Lemma lse_shift : forall l mx, l <> [] ->
  mx + ln (rsum (map (fun x => exp (x - mx)) l)) = ln (rsum (map exp l)).
Proof.
  intros l mx N. rewrite shifted_expsum.
  rewrite ln_mult; [|apply expsum_pos; assumption|apply exp_pos]. rewrite ln_exp. lra.
Qed.

Lemma component_logs_ne : forall A B (f : A -> B) (l : list A), l <> [] -> map f l <> [].
Proof. intros A B f [|x l] H; [congruence|discriminate]. Qed.

(** ** Sums *)
Lemma rsum_le_n : forall l, Forall (fun x => x <= 1) l -> rsum l <= INR (length l).
Proof.
  induction l as [|x l IH]; intros H; [cbn; lra|]. inversion H; subst. specialize (IH H3).
  cbn [rsum length]. rewrite S_INR. lra.
Qed.
Lemma rsum_in_le : forall l x, Forall (fun y => 0 <= y) l -> In x l -> x <= rsum l.
Proof.
  induction l as [|y l IH]; intros x H I; [destruct I|]. inversion H; subst.
  assert (P : 0 <= rsum l). { clear - H3. induction l as [|z l IH]; cbn; [lra|]. inversion H3; subst. specialize (IH H2). lra. }
  destruct I as [->|I]; cbn; [lra|]. specialize (IH x H3 I). lra.
Qed.
Lemma rsum_nonneg : forall l, Forall (fun y => 0 <= y) l -> 0 <= rsum l.
Proof. induction l as [|y l IH]; intros H; cbn; [lra|]. inversion H; subst. specialize (IH H3). lra. Qed.
Lemma rsum_plus {A} (f g : A -> R) l : rsum (map (fun x => f x + g x) l) = rsum (map f l) + rsum (map g l).
Proof. induction l as [|x l IH]; cbn; [lra|]. rewrite IH. lra. Qed.
Lemma rsum_const {A} c (l : list A) : rsum (map (fun _ => c) l) = INR (length l) * c.
Proof. induction l as [|x l IH]; [cbn; lra|]. cbn [map rsum length]. rewrite IH, S_INR. lra. Qed.
Lemma rsum_swap {A B} (f : A -> B -> R) la lb :
  rsum (map (fun a => rsum (map (fun b => f a b) lb)) la) = rsum (map (fun b => rsum (map (fun a => f a b) la)) lb).
Proof.
  induction la as [|a la IH]; cbn.
  - induction lb as [|b lb IHb]; cbn; lra.
  - rewrite IH, <- rsum_plus. reflexivity.
Qed.
Lemma rsum_nth : forall l, rsum (map (fun i => nth i l 0) (seq 0 (length l))) = rsum l.
Proof.
  induction l as [|x l IH]; [reflexivity|]. cbn [length seq map rsum nth].
  rewrite <- seq_shift, map_map. f_equal. exact IH.
Qed.
Lemma dot_seq : forall a b n, length a = n -> length b = n ->
  dot a b = rsum (map (fun i => nth i a 0 * nth i b 0) (seq 0 n)).
Proof.
  unfold dot. induction a as [|x a IH]; intros [|y b] n La Lb; cbn in *; subst; try discriminate; [reflexivity|].
  cbn [seq map rsum]. rewrite (IH b (length a)) by (auto; lia). rewrite <- seq_shift, map_map. reflexivity.
Qed.
Lemma col_length : forall m t, length (col m t) = length m.
Proof. intros; unfold col; apply map_length. Qed.
Lemma col_nth : forall m t i, (i < length m)%nat -> nth i (col m t) 0 = nth t (nth i m []) 0.
Proof.
  intros m t i H. unfold col. rewrite nth_indep with (d' := (fun row => nth t row 0) []).
  - apply (map_nth (fun row => nth t row 0)).
  - rewrite map_length. exact H.
Qed.
