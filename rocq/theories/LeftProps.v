(** * C291-C294: the likelihood with links, the estimate of a Dirichlet's parameter, the likelihood of the old side topic model, models with links *)
From Coq Require Import List String Reals ZArith Arith Bool Lia Lra.
From Verif Require Import Base RealModel RealProofs VbModel VbProofs LinkModel CtmModel CtmProofs HyperModel BouchProofs BoundProofs LeftModel.
Import ListNotations.
Open Scope nat_scope.
Open Scope list_scope.

(** What a mixture of topics gives a word, and the log of what the words, or links, have. *)
Definition mixture (K : nat) (topics : vec) (what : vec) : R := (vsum K (fun k => topics k * what k) / vsum K topics)%R.
Definition log_of (n m : nat) (A : mat) (tiny : R) (p : nat -> nat -> R) : R :=
  vsum n (fun i => vsum m (fun j => A i j * (if rltb tiny (p i j) then ln (p i j) else ln tiny)))%R.

(** ** C291 *)
Lemma over_dot K t w : vsum K (fun k => over_sum K t k * w k)%R = mixture K t w.
Proof.
  unfold mixture, over_sum, Rdiv. rewrite Rmult_comm, <- vsum_scale. apply vsum_ext. intros; ring.
Qed.
(** If every word has a document of its number, the likelihood is that of the words, plus a second
    sum over the words, not the links. *)
Theorem C291_value : forall K D T tiny W links topics words, T <= D ->
  self_likelihood K D T tiny W links topics words
  = Ok (log_of D T W tiny (fun d t => mixture K (topics d) (fun k => words k t / vsum T (words k)))
        + log_of D T W tiny (fun d t => mixture K (topics d) (fun k => topics t k / vsum K (topics t))))%R.
Proof.
  intros K D T tiny W links topics words H. unfold self_likelihood. cbv zeta.
  replace (T - D) with 0 by lia. cbn [seq existsb].
  assert (E : existsb (fun _ : nat => false) (seq 0 D) = false)
    by (induction (seq 0 D); [reflexivity|cbn [existsb]; assumption]).
  rewrite E. f_equal. unfold log_of, ln_floor. f_equal;
    apply vsum_ext; intros; apply vsum_ext; intros; rewrite over_dot; reflexivity.
Qed.
(** The probabilities of words are such. *)
Theorem C291_words : forall K T topics words,
  (vsum K topics <> 0)%R -> (forall k, k < K -> vsum T (words k) <> 0%R) ->
  vsum T (fun t => mixture K topics (fun k => words k t / vsum T (words k))%R) = 1%R.
Proof.
  intros K T topics words H Hw. unfold mixture, Rdiv.
  rewrite (vsum_ext T _ (fun t => / vsum K topics * vsum K (fun k => topics k * (words k t * / vsum T (words k))))%R) by (intros; ring).
  rewrite vsum_scale, vsum_swap.
  match goal with |- (_ * ?x = _)%R => replace x with (vsum K topics) end.
  - field. assumption.
  - apply vsum_ext. intros k Hk. symmetry. rewrite vsum_scale.
    rewrite (vsum_ext T _ (fun t => / vsum T (words k) * words k t)%R) by (intros; ring).
    rewrite vsum_scale. field. auto.
Qed.
(** Two corpora that differ in their links, and to whose links the documents' topics give
    different probabilities, have the same likelihood. *)
Theorem C291_links_refuted : exists K D T tiny W L L' topics words x,
  (0 < tiny)%R /\
  self_likelihood K D T tiny W L topics words = Ok x /\
  self_likelihood K D T tiny W L' topics words = Ok x /\
  log_of D D L tiny (fun d j => mixture K (topics d) (fun k => topics j k / vsum D (fun i => topics i k)))%R
  <> log_of D D L' tiny (fun d j => mixture K (topics d) (fun k => topics j k / vsum D (fun i => topics i k)))%R.
Proof.
  set (L := fun i j : nat => if (i =? 0) && (j =? 1) then 1%R else 0%R).
  exists 1, 2, 1, (1 / 4)%R, (fun _ _ => 1%R), (fun _ _ => 0%R), L, (fun _ _ => 1%R), (fun _ _ => 1%R).
  eexists. split; [lra|]. split; [apply C291_value; lia|]. split; [apply C291_value; lia|].
  unfold log_of, mixture, L, vsum. cbn [seq map rsum Nat.eqb andb].
  replace ((1 * (1 / (1 + (1 + 0))) + 0) / (1 + 0))%R with (/ 2)%R by field.
  replace (rltb (1 / 4) (/ 2)) with true by (symmetry; apply rltb_true; lra).
  assert (0 < ln 2)%R by (rewrite <- ln_1; apply ln_increasing; lra).
  rewrite ln_Rinv by lra. lra.
Qed.
(** Any corpus where a document has a word of number beyond that of the documents makes compiled
    code read outside of memory. *)
Theorem C291_memory : forall K D T tiny W links topics words d t,
  d < D -> D <= t < T -> (W d t <> 0)%R ->
  self_likelihood K D T tiny W links topics words = Raise MemoryOOB.
Proof.
  intros K D T tiny W links topics words d t Hd Ht Hw. unfold self_likelihood. cbv zeta.
  replace (existsb _ (seq 0 D)) with true; [reflexivity|]. symmetry.
  apply existsb_exists. exists d. split; [apply in_seq; lia|].
  apply existsb_exists. exists t. split; [apply in_seq; lia|].
  unfold stored_word. destruct (Req_EM_T (W d t) 0); [contradiction|reflexivity].
Qed.
Theorem C291_memory_refuted : exists K D T tiny W links topics words,
  self_likelihood K D T tiny W links topics words = Raise MemoryOOB.
Proof.
  exists 1, 1, 2, 1%R, (fun _ t => INR t), (fun _ _ => 0%R), (fun _ _ => 1%R), (fun _ _ => 1%R).
  apply (C291_memory 1 1 2 1 _ _ _ _ 0 1); [lia|lia|cbn; lra].
Qed.
(** Two documents, two words and two topics. *)
Example C291_case : exists x,
  self_likelihood 2 2 2 (1 / 100) (fun _ _ => 1%R) (fun _ _ => 0%R) (fun d k => INR (S (d + k))) (fun k t => INR (S (k * t))) = Ok x /\
  vsum 2 (fun t => mixture 2 (fun k => INR (S k)) (fun k => INR (S (k * t)) / vsum 2 (fun t => INR (S (k * t)))))%R = 1%R.
Proof.
  eexists. split; [apply C291_value; lia|].
  apply (C291_words 2 2 (fun k => INR (S k)) (fun k t => INR (S (k * t)))).
  - apply Rgt_not_eq. apply vsum_pos; [lia|intros; apply lt_0_INR; lia].
  - intros. apply Rgt_not_eq. apply vsum_pos; [lia|intros; apply lt_0_INR; lia].
Qed.

(** ** C292 *)
(** The log of the probability of samples, up to what does not depend on the parameter; [lg] is
    the log of the gamma function. *)
Definition set_at (a : vec) (k : nat) (x : R) : vec := fun i => if i =? k then x else a i.
Definition dir_log (N K : nat) (lg : R -> R) (samples : mat) (a : vec) : R :=
  vsum N (fun i => lg (vsum K a) + vsum K (fun k => (a k - 1) * ln (samples i k) - lg (a k)))%R.

Lemma lim_vsum n (f : nat -> R -> R) (l : vec) x : (forall i, i < n -> derivable_pt_lim (f i) x (l i)) ->
  derivable_pt_lim (fun s => vsum n (fun i => f i s)) x (vsum n l).
Proof.
  induction n as [|n IH]; intros H; [exact (derivable_pt_lim_const 0%R x)|].
  apply (deriv_ext (fun s => vsum n (fun i => f i s) + f n s)%R _ _ (vsum n l + l n)%R); [intros; rewrite vsum_S; reflexivity|rewrite vsum_S; reflexivity|].
  apply (derivable_pt_lim_plus (fun s => vsum n (fun i => f i s)) (f n)); [apply IH; intros; apply H; lia|apply H; lia].
Qed.
Lemma vsum_at K a k x : k < K -> vsum K (set_at a k x) = (vsum K a - a k + x)%R.
Proof.
  intros H. rewrite (vsum_ext K _ (fun i => a i + eye k i * (x - a i))%R).
  - rewrite vsum_plus, vsum_eye by assumption. ring.
  - intros i _. unfold set_at, eye. rewrite (Nat.eqb_sym i k). destruct (Nat.eqb_spec k i); [ring|ring].
Qed.
Lemma sum_lim K a k (f : R -> R) l : k < K -> derivable_pt_lim f (vsum K a) l ->
  derivable_pt_lim (fun x => f (vsum K (set_at a k x))) (a k) l.
Proof.
  intros H Hf.
  apply (deriv_ext (comp f (fun x => (vsum K a - a k) + x)%R) _ _ (l * 1)%R); [intros; unfold comp; rewrite vsum_at by assumption; reflexivity|ring|].
  apply derivable_pt_lim_comp.
  - apply (deriv_ext ((fct_cte (vsum K a - a k)%R) + id)%F _ _ (0 + 1)%R); [intros; reflexivity|ring|].
    apply derivable_pt_lim_plus; [apply derivable_pt_lim_const|apply derivable_pt_lim_id].
  - replace (vsum K a - a k + a k)%R with (vsum K a) by ring. assumption.
Qed.
Lemma at_lim (f : R -> R) a k j l : derivable_pt_lim f (a k) l ->
  derivable_pt_lim (fun x => f (set_at a k x j)) (a k) (eye k j * l)%R.
Proof.
  intros Hf. unfold set_at, eye. rewrite (Nat.eqb_sym j k). destruct (Nat.eqb_spec k j).
  - apply (deriv_ext f _ _ l); [reflexivity|ring|assumption].
  - apply (deriv_ext (fct_cte (f (a j))) _ _ 0%R); [reflexivity|ring|apply derivable_pt_lim_const].
Qed.
(** The gradient is that of the log of the probability of the samples. *)
Theorem C292_gradient : forall N K lg psi samples a k, k < K ->
  derivable_pt_lim lg (a k) (psi (a k)) -> derivable_pt_lim lg (vsum K a) (psi (vsum K a)) ->
  derivable_pt_lim (fun x => dir_log N K lg samples (set_at a k x)) (a k)
    (dir_g N K psi (log_sums N samples) a k).
Proof.
  intros N K lg psi samples a k Hk H1 H2.
  apply (deriv_ext (fun x => dir_log N K lg samples (set_at a k x)) _ _
    (vsum N (fun i => psi (vsum K a) + vsum K (fun j => eye k j * (1 * ln (samples i k) - psi (a k)))))%R); [reflexivity| |].
  - unfold dir_g, log_sums. rewrite vsum_plus, vsum_const.
    rewrite (vsum_ext N (fun i => vsum K _) (fun i => ln (samples i k) - psi (a k))%R)
      by (intros; rewrite (vsum_eye K k (fun _ => _)) by assumption; ring).
    rewrite vsum_minus, vsum_const. ring.
  - unfold dir_log. apply (lim_vsum N (fun i x => lg (vsum K (set_at a k x)) + vsum K (fun j => (set_at a k x j - 1) * ln (samples i j) - lg (set_at a k x j)))%R). intros i _.
    apply (derivable_pt_lim_plus (fun x => lg (vsum K (set_at a k x)))
      (fun x => vsum K (fun j => (set_at a k x j - 1) * ln (samples i j) - lg (set_at a k x j)))%R); [apply sum_lim; assumption|].
    apply (lim_vsum K (fun j x => (set_at a k x j - 1) * ln (samples i j) - lg (set_at a k x j))%R). intros j _.
    apply (deriv_ext (fun x => (fun y => (y - 1) * ln (samples i j) - lg y)%R (set_at a k x j)) _ _ (eye k j * (1 * ln (samples i j) - psi (a k)))%R).
    + reflexivity.
    + unfold eye. destruct (Nat.eqb_spec k j); [subst; reflexivity|ring].
    + apply (at_lim (fun y => (y - 1) * ln (samples i j) - lg y)%R).
      apply (derivable_pt_lim_minus (fun y => (y - 1) * ln (samples i j))%R lg); [|assumption].
      apply (deriv_ext (mult_real_fct (ln (samples i j)) (id - fct_cte 1)%F) _ _ (ln (samples i j) * (1 - 0))%R);
        [intros; unfold mult_real_fct, minus_fct, id, fct_cte; ring|ring|].
      apply derivable_pt_lim_scal. apply derivable_pt_lim_minus; [apply derivable_pt_lim_id|apply derivable_pt_lim_const].
Qed.
(** The change of the gradient of coordinate i with the parameter's coordinate j. *)
Definition second (N K : nat) (psi1 : R -> R) (a : vec) (i j : nat) : R :=
  (INR N * psi1 (vsum K a) - (if i =? j then INR N * psi1 (a i) else 0))%R.
Theorem C292_second : forall N K psi psi1 p a i j, i < K -> j < K ->
  derivable_pt_lim psi (a j) (psi1 (a j)) -> derivable_pt_lim psi (vsum K a) (psi1 (vsum K a)) ->
  derivable_pt_lim (fun x => dir_g N K psi p (set_at a j x) i) (a j) (second N K psi1 a i j).
Proof.
  intros N K psi psi1 p a i j Hi Hj H1 H2. unfold dir_g.
  pose (f := fun x => psi (set_at a j x i)). pose (h := fun x => psi (vsum K (set_at a j x))).
  apply (deriv_ext (mult_real_fct (- INR N) f + mult_real_fct (INR N) h + fct_cte (p i))%F _ _
    (- INR N * (eye j i * psi1 (a j)) + INR N * psi1 (vsum K a) + 0)%R).
  - intros. unfold plus_fct, mult_real_fct, fct_cte, f, h. ring.
  - unfold second, eye. rewrite (Nat.eqb_sym j i). destruct (Nat.eqb_spec i j); [subst; ring|ring].
  - repeat apply derivable_pt_lim_plus; [apply derivable_pt_lim_scal|apply derivable_pt_lim_scal|apply derivable_pt_lim_const].
    + apply (at_lim psi). assumption.
    + apply (sum_lim K a j psi); assumption.
Qed.
(** Where Newton's equations can be solved that way. *)
Definition solvable (N K : nat) (psi1 : R -> R) (a : vec) : Prop :=
  0 < N /\ (psi1 (vsum K a) <> 0)%R /\ (forall k, k < K -> psi1 (a k) <> 0%R) /\
  (vsum K (fun k => / psi1 (a k)) <> / psi1 (vsum K a))%R.
(** A step is Newton's: the second derivatives times what is taken off is the gradient. *)
Theorem C292_newton : forall N K psi psi1 p a i, solvable N K psi1 a -> i < K ->
  vsum K (fun j => second N K psi1 a i j * (a j - dir_step N K psi psi1 p a j))%R = dir_g N K psi p a i.
Proof.
  intros N K psi psi1 p a i (HN & Hz & Hq & Hb) Hi.
  assert (N0 : (INR N <> 0)%R) by (apply not_0_INR; lia).
  unfold dir_step. cbv zeta.
  set (g := dir_g N K psi p a). set (q := dir_q N psi1 a). set (z := dir_z N K psi1 a).
  assert (Z : (z <> 0)%R) by (unfold z, dir_z; apply Rmult_integral_contrapositive; split; assumption).
  assert (S0 : (1 / z + vsum K q <> 0)%R).
  { unfold q, dir_q. rewrite (vsum_ext K _ (fun k => - / INR N * / psi1 (a k))%R) by (intros; field; auto).
    rewrite vsum_scale. unfold z, dir_z. intro E. apply Hb.
    apply (Rmult_eq_reg_l (/ INR N)); [|apply Rinv_neq_0_compat; assumption].
    replace (/ INR N * / psi1 (vsum K a))%R with (1 / (INR N * psi1 (vsum K a)))%R by (field; auto). lra. }
  set (b := (vsum K (fun k => g k * q k) / (1 / z + vsum K q))%R).
  rewrite (vsum_ext K _ (fun j => z * (g j * q j) - z * b * q j + eye i j * ((g j - b) * q j * (- INR N * psi1 (a j))))%R).
  2:{ intros j _. unfold second, eye, z, dir_z. destruct (Nat.eqb_spec i j); [subst; ring|ring]. }
  rewrite vsum_plus, vsum_minus, !vsum_scale, vsum_eye by assumption.
  replace ((g i - b) * q i * (- INR N * psi1 (a i)))%R with (g i - b)%R by (unfold q, dir_q; field; auto).
  unfold b at 1 2. generalize S0. generalize (vsum K (fun k => g k * q k)%R) (vsum K q). intros G Q SQ.
  field. split; [assumption|]. intro E. apply SQ. apply (Rmult_eq_reg_l z); [|assumption].
  replace (z * (1 / z + Q))%R with (1 + Q * z)%R by (field; assumption). lra.
Qed.
(** A parameter is unchanged by a step exactly if the gradient is zero; then sixty leave it. *)
Theorem C292_stays : forall N K psi psi1 p a, solvable N K psi1 a ->
  ((forall k, k < K -> dir_step N K psi psi1 p a k = a k) <-> (forall k, k < K -> dir_g N K psi p a k = 0%R)).
Proof.
  intros N K psi psi1 p a H. split; intros E k Hk.
  - rewrite <- (C292_newton N K psi psi1 p a k H Hk).
    rewrite (vsum_ext K _ (fun _ => 0%R)) by (intros j Hj; rewrite E by assumption; ring). apply vsum_zero.
  - unfold dir_step. cbv zeta. rewrite (vsum_ext K _ (fun _ => 0%R)) by (intros j Hj; rewrite E by assumption; ring).
    rewrite vsum_zero, E by assumption. unfold Rdiv. ring.
Qed.
Lemma step_ext N K psi psi1 p a b : (forall k, k < K -> a k = b k) ->
  forall k, k < K -> dir_step N K psi psi1 p a k = dir_step N K psi psi1 p b k.
Proof.
  intros H k Hk. assert (S : vsum K a = vsum K b) by (apply vsum_ext; assumption).
  assert (G : forall i, i < K -> dir_g N K psi p a i = dir_g N K psi p b i) by (intros; unfold dir_g; rewrite S, H by assumption; reflexivity).
  assert (Q : forall i, i < K -> dir_q N psi1 a i = dir_q N psi1 b i) by (intros; unfold dir_q; rewrite H by assumption; reflexivity).
  unfold dir_step, dir_z. cbv zeta. rewrite S, (H k), (G k), (Q k), (vsum_ext K _ _ Q) by assumption.
  rewrite (vsum_ext K (fun k0 => dir_g N K psi p a k0 * dir_q N psi1 a k0)%R (fun k0 => dir_g N K psi p b k0 * dir_q N psi1 b k0)%R)
    by (intros; rewrite G, Q by assumption; reflexivity). reflexivity.
Qed.
Lemma loop_ext N K psi psi1 p n : forall a b, (forall k, k < K -> a k = b k) ->
  forall k, k < K -> dir_loop N K psi psi1 n p a k = dir_loop N K psi psi1 n p b k.
Proof.
  induction n as [|n IH]; intros a b H k Hk; cbn [dir_loop]; [auto|]. apply IH; [|assumption]. apply step_ext. assumption.
Qed.
Theorem C292_estimate : forall N K psi psi1 samples a, solvable N K psi1 a ->
  (forall k, k < K -> dir_g N K psi (log_sums N samples) a k = 0%R) ->
  forall k, k < K -> dir_estimate N K psi psi1 samples a k = a k.
Proof.
  intros N K psi psi1 samples a H G. unfold dir_estimate. generalize 60. induction n as [|n IH]; intros k Hk; [reflexivity|].
  cbn [dir_loop]. transitivity (dir_loop N K psi psi1 n (log_sums N samples) a k); [|exact (IH k Hk)]. apply loop_ext; [|assumption]. apply C292_stays; assumption.
Qed.
(** Two samples of two coordinates, with functions that are not those of the library. *)
Example C292_case : solvable 2 2 (fun x => / (x * x))%R (fun _ => 1%R).
Proof.
  unfold solvable, vsum. cbn [seq map rsum]. repeat split; [lia| | |].
  - apply Rinv_neq_0_compat. lra.
  - intros. apply Rinv_neq_0_compat. lra.
  - rewrite !Rinv_inv. lra.
Qed.

(** ** C293 *)
(** The likelihood is that of the words under the softmax of the logs of the weights, and the
    weights are afterwards as they were. *)
Theorem C293_value : forall K T D F tiny W l v, 0 < K ->
  exists e', uyv_likelihood K T D F F T tiny W (fun d k => exp (l d k)) v
    = Ok (log_of D T W tiny (fun d t => vsum K (fun k => vsoftmax K (l d) k * v k t)%R), e') /\
  forall d k, e' d k = exp (l d k).
Proof.
  intros K T D F tiny W l v HK. unfold uyv_likelihood. rewrite !Nat.eqb_refl. cbn [negb]. cbv zeta.
  exists (fun d k => exp (l d k) / vsum K (fun k0 => exp (l d k0)) * vsum K (fun k0 => exp (l d k0)))%R. split.
  - match goal with |- Ok (?x, ?y) = Ok (?z, _) => apply (f_equal (fun r => Ok (r, y)) (x := x) (y := z)) end.
    unfold log_of, ln_floor. apply vsum_ext. intros d _. apply vsum_ext. intros t _.
    rewrite (vsum_ext K (fun k => exp (l d k) / vsum K (fun k => exp (l d k)) * v k t)%R (fun k => vsoftmax K (l d) k * v k t)%R); [reflexivity|].
    intros k Hk. rewrite vsoftmax_is by assumption. reflexivity.
  - intros d k. cbv beta. field. apply Rgt_not_eq. apply vsum_pos; [assumption|intros; apply exp_pos].
Qed.
Theorem C293_shapes : forall K T D F F' T' tiny W e v, F' <> F \/ T' <> T ->
  uyv_likelihood K T D F F' T' tiny W e v = Raise AssertionError.
Proof.
  intros K T D F F' T' tiny W e v H. unfold uyv_likelihood.
  destruct (Nat.eqb_spec F' F); cbn [negb]; [|reflexivity]. destruct (Nat.eqb_spec T' T); cbn [negb]; [|reflexivity]. lia.
Qed.
(** The error of reconstruction of any query state raises. *)
Theorem C293_error : forall value (rest : value -> res R) q, map fst q = query_fields ->
  recons_error value rest q = Raise AttributeError.
Proof.
  intros value rest q H. unfold query_fields in H.
  do 5 (destruct q as [|[? ?] q]; [discriminate H|cbn [map fst] in H; injection H; clear H; intros H; intros; subst]).
  destruct q as [|p q]; [reflexivity|discriminate].
Qed.
Theorem C293_error_refuted : exists q : list (string * nat), map fst q = query_fields /\
  forall rest, recons_error nat rest q = Raise AttributeError.
Proof.
  exists (map (fun x => (x, 0)) query_fields). split; [reflexivity|]. intros rest. apply C293_error. reflexivity.
Qed.
Example C293_case : exists r, uyv_likelihood 2 3 2 4 4 3 1 (fun _ _ => 1%R) (fun d k => exp (INR (d + k))) (fun _ _ => 1%R) = Ok r.
Proof. destruct (C293_value 2 3 2 4 1 (fun _ _ => 1%R) (fun d k => INR (d + k)) (fun _ _ => 1%R)) as (e' & E & _); [lia|]. eexists. exact E. Qed.

(** ** C294 *)
Theorem C294_new : forall K D W ids, 1 < K -> K < 255 -> 0 < D ->
  exists p words, self_new K D W ids PriorNone = Ok (p, words) /\
  List.length p = S K /\ (forall k, k < K -> nth k p 0%R = (5 / INR K + 1 / 2)%R) /\ nth K p 1%R = 0%R /\
  forall k t, words k t = (1 + W (ids k) t)%R.
Proof.
  intros K D W ids H1 H2 HD. unfold self_new.
  destruct (Nat.leb_spec K 1); [lia|]. destruct (Nat.leb_spec 255 K); [lia|]. cbn [bind].
  rewrite repeat_length. destruct (Nat.leb_spec (S K) K); [lia|]. destruct (Nat.eqb_spec D 0); [lia|].
  eexists. eexists. split; [reflexivity|].
  assert (L : List.length (firstn K (repeat (5 / INR K + 1 / 2)%R (S K))) = K) by (rewrite firstn_length, repeat_length; lia).
  unfold put_zero. repeat split.
  - rewrite app_length, L. cbn [List.length]. rewrite skipn_length, repeat_length. lia.
  - intros k Hk. rewrite app_nth1 by lia.
    assert (E : forall n m (x : R), m <= n -> firstn m (repeat x n) = repeat x m).
    { clear. induction n as [|n IH]; intros [|m] x H; cbn [repeat firstn]; [reflexivity|lia|reflexivity|]. rewrite IH by lia. reflexivity. }
    rewrite E by lia. apply (nth_error_nth (repeat (5 / INR K + 1 / 2)%R K)). apply nth_error_repeat. assumption.
  - rewrite app_nth2 by lia. rewrite L, Nat.sub_diag. reflexivity.
Qed.
(** What a prior, or a corpus, of another kind does. *)
Theorem C294_raises : forall K D W ids, 1 < K -> K < 255 ->
  (forall x, self_new K D W ids (PriorNumber x) = Raise TypeError) /\
  (forall a, List.length a <= K -> self_new K D W ids (PriorArray a) = Raise IndexError) /\
  self_new K 0 W ids PriorNone = Raise ValueError.
Proof.
  intros K D W ids H1 H2. unfold self_new.
  destruct (Nat.leb_spec K 1); [lia|]. destruct (Nat.leb_spec 255 K); [lia|]. cbn [bind]. repeat split.
  - intros a Ha. destruct (Nat.leb_spec (List.length a) K); [reflexivity|lia].
  - rewrite repeat_length. destruct (Nat.leb_spec (S K) K); [lia|]. reflexivity.
Qed.
Theorem C294_topics : forall K D W ids prior, K <= 1 \/ 255 <= K -> self_new K D W ids prior = Raise AssertionError.
Proof.
  intros K D W ids prior H. unfold self_new. destruct (Nat.leb_spec K 1); [reflexivity|]. destruct (Nat.leb_spec 255 K); [reflexivity|lia].
Qed.
(** A prior of positive numbers has a query state: its last column is the documents' lengths, and
    the others are the tokens that the draw gives each topic, and the prior. *)
Theorem C294_state : forall K lens p draws, (forall x, In x p -> 0 < x)%R -> List.length p = S K ->
  exists q, self_query K lens p draws = Ok q /\ forall d,
    q d K = lens d /\
    (forall k, k < K -> q d k = (nth k p 0 + lens d * draws d k)%R) /\
    (vsum (S K) (draws d) = 1%R -> vsum K (q d) = (vsum K (fun k => nth k p 0) + lens d * (1 - draws d K))%R).
Proof.
  intros K lens p draws Hp HL. unfold self_query, dirichlet.
  replace (forallb _ p) with true by (symmetry; apply forallb_forall; intros x Hx; apply rltb_true, Hp, Hx).
  cbn [bind]. eexists. split; [reflexivity|]. intros d. cbv beta. rewrite Nat.eqb_refl. split; [reflexivity|].
  assert (E : forall k, k < K -> (if k =? K then lens d else draws d k * lens d + nth k p 0)%R = (nth k p 0 + lens d * draws d k)%R).
  { intros k Hk. destruct (Nat.eqb_spec k K); [lia|ring]. }
  split; [exact E|]. intros S1. rewrite (vsum_ext K _ _ E), vsum_plus, vsum_scale. rewrite vsum_S in S1.
  replace (vsum K (draws d)) with (1 - draws d K)%R; [reflexivity|]. rewrite <- S1. ring.
Qed.
(** No model that is made has a query state: the last number of its prior is zero, and
    rd.dirichlet wants positive numbers. *)
Theorem C294_no_query : forall K D W ids prior p words lens draws,
  self_new K D W ids prior = Ok (p, words) -> self_query K lens p draws = Raise ValueError.
Proof.
  intros K D W ids prior p words lens draws H. unfold self_new in H.
  destruct (K <=? 1); [discriminate|]. destruct (255 <=? K); [discriminate|].
  assert (G : exists a, p = put_zero K a).
  { destruct prior as [|x|a]; cbn [bind] in H; [|discriminate|];
      (destruct (_ <=? K) in H; [discriminate|]; destruct (D =? 0); [discriminate|]); injection H; intros; subst; eexists; reflexivity. }
  destruct G as (a & ->). unfold self_query, dirichlet.
  destruct (forallb _ _) eqn:E; [|reflexivity]. exfalso.
  rewrite forallb_forall in E. assert (B : rltb 0 0 = true) by (apply E; unfold put_zero; apply in_or_app; right; left; reflexivity).
  apply rltb_true in B. lra.
Qed.
Theorem C294_no_query_refuted : exists K D W ids p words,
  self_new K D W ids PriorNone = Ok (p, words) /\ forall lens draws, self_query K lens p draws = Raise ValueError.
Proof.
  destruct (C294_new 2 3 (fun d t => INR (d + t)) (fun k => k)) as (p & words & E & _); [lia|lia|lia|].
  exists 2, 3, (fun d t => INR (d + t)), (fun k => k), p, words. split; [exact E|]. intros. exact (C294_no_query _ _ _ _ _ _ _ _ _ E).
Qed.
Example C294_case : exists p words, self_new 20 7 (fun d t => INR (d * t)) (fun k => k mod 7) PriorNone = Ok (p, words) /\ words 3 2 = 7%R.
Proof.
  destruct (C294_new 20 7 (fun d t => INR (d * t)) (fun k => k mod 7)) as (p & words & E & _ & _ & _ & Hw); [lia|lia|lia|].
  exists p, words. split; [exact E|]. rewrite Hw. cbn. lra.
Qed.

Print Assumptions C291_value.
Print Assumptions C291_words.
Print Assumptions C291_links_refuted.
Print Assumptions C291_memory.
Print Assumptions C291_memory_refuted.
Print Assumptions C292_gradient.
Print Assumptions C292_second.
Print Assumptions C292_newton.
Print Assumptions C292_stays.
Print Assumptions C292_estimate.
Print Assumptions C293_value.
Print Assumptions C293_shapes.
Print Assumptions C293_error.
Print Assumptions C293_error_refuted.
Print Assumptions C294_new.
Print Assumptions C294_raises.
Print Assumptions C294_topics.
Print Assumptions C294_state.
Print Assumptions C294_no_query.
Print Assumptions C294_no_query_refuted.
