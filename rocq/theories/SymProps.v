(** * C252-C254: the order of the documents, the numbering of the words and the
    numbering of the topics do not matter. *)
From Coq Require Import List Reals ZArith Arith Bool Lra Lia Permutation.
From Verif Require Import Base RealModel RealProofs MixModel MixProofs MixProps VbModel VbProofs VbProps VbField
  LinkModel LinkProps CtmModel CtmProofs BohBoundProps CtmProps.
Import ListNotations.
Open Scope nat_scope.

(** ** Specification *)
(** A renumbering of [n] things: new number [i] is the old number [f i]. *)
Definition renumbers (n : nat) (f : nat -> nat) : Prop :=
  (forall i, i < n -> f i < n) /\ (forall i j, i < n -> j < n -> f i = f j -> i = j).
(** Vectors and matrices that are the same but for the numbering. *)
Definition same_vec (n : nat) (f : nat -> nat) (v' v : vec) : Prop := forall i, i < n -> v' i = v (f i).
Definition same_mat (m n : nat) (f g : nat -> nat) (A' A : mat) : Prop :=
  forall i j, i < m -> j < n -> A' i j = A (f i) (g j).
(** Computations that both return, related results, or both raise the same exception. *)
Definition alike {A} (rel : A -> A -> Prop) (r' r : res A) : Prop :=
  match r', r with
  | Ok a', Ok a => rel a' a
  | Raise e', Raise e => e' = e
  | _, _ => False
  end.

(** ** Sums and largest elements *)
Lemma renumbers_perm n f : renumbers n f -> Permutation (map f (seq 0 n)) (seq 0 n).
Proof.
  intros [H1 H2]. apply NoDup_Permutation_bis.
  - assert (X : forall l, (forall i, In i l -> i < n) -> NoDup l -> NoDup (map f l)).
    { induction l as [|a l IH]; intros Hl N; [constructor|]. inversion N; subst. cbn [map]. constructor.
      - rewrite in_map_iff. intros (b & E & I). assert (b = a) as -> by (apply H2; auto using in_eq, in_cons). contradiction.
      - apply IH; [auto using in_cons|assumption]. }
    apply X; [intros i I; apply in_seq in I; lia|apply seq_NoDup].
  - rewrite map_length. lia.
  - intros x I. apply in_map_iff in I. destruct I as (i & <- & I). apply in_seq in I. apply in_seq. specialize (H1 i). lia.
Qed.
Lemma rsum_perm l l' : Permutation l l' -> rsum l = rsum l'.
Proof. induction 1; cbn [rsum]; lra. Qed.
Lemma vsum_renumber n f v : renumbers n f -> vsum n (fun i => v (f i)) = vsum n v.
Proof.
  intros H. unfold vsum. rewrite <- (map_map f v). apply rsum_perm, Permutation_map, renumbers_perm, H.
Qed.
Lemma vsum_same n f v' v : renumbers n f -> same_vec n f v' v -> vsum n v' = vsum n v.
Proof. intros H S. rewrite <- (vsum_renumber n f v H). apply vsum_ext. exact S. Qed.
Lemma renumbers_onto n f j : renumbers n f -> j < n -> exists i, i < n /\ f i = j.
Proof.
  intros H Hj. assert (I : In j (map f (seq 0 n))).
  { eapply Permutation_in; [symmetry; apply renumbers_perm, H|]. apply in_seq. lia. }
  apply in_map_iff in I. destruct I as (i & E & I). apply in_seq in I. exists i. split; [lia|exact E].
Qed.
Lemma fold_Rmax_ge l x : (x <= fold_left Rmax l x)%R /\ forall y, In y l -> (y <= fold_left Rmax l x)%R.
Proof.
  revert x. induction l as [|a l IH]; intros x; cbn [fold_left]; [split; [lra|intros y []]|].
  destruct (IH (Rmax x a)) as [A B]. pose proof (Rmax_l x a). pose proof (Rmax_r x a). split; [lra|].
  intros y [<-|I]; [lra|auto].
Qed.
Lemma vmax_ge n v i : i < n -> (v i <= vmax n v)%R.
Proof.
  intros H. unfold vmax. assert (I : In (v i) (map v (seq 0 n))) by (apply in_map, in_seq; lia).
  destruct (map v (seq 0 n)) as [|x l]; [destruct I|]. destruct (fold_Rmax_ge l x) as [A B].
  destruct I as [<-|I]; auto.
Qed.
Lemma vmax_same n f v' v : renumbers n f -> same_vec n f v' v -> vmax n v' = vmax n v.
Proof.
  intros H Sv. destruct n as [|m]; [reflexivity|]. set (n := S m) in *. apply Rle_antisym.
  - destruct (vmax_in n v') as (k & Hk & <-); [lia|]. rewrite (Sv k Hk). apply vmax_ge, H, Hk.
  - destruct (vmax_in n v) as (k & Hk & <-); [lia|]. destruct (renumbers_onto n f k H Hk) as (i & Hi & <-).
    rewrite <- (Sv i Hi). apply vmax_ge, Hi.
Qed.
Lemma vsoftmax_same n f v' v : renumbers n f -> same_vec n f v' v -> same_vec n f (vsoftmax n v') (vsoftmax n v).
Proof.
  intros H S i Hi. unfold vsoftmax. rewrite (vmax_same n f v' v H S), (S i Hi). f_equal.
  apply (vsum_same n f); [exact H|]. intros j Hj. rewrite (S j Hj). reflexivity.
Qed.
Lemma eye_same n f : renumbers n f -> same_mat n n f f eye eye.
Proof.
  intros [_ H] i j Hi Hj. unfold eye. destruct (Nat.eqb_spec i j) as [->|N]; [rewrite Nat.eqb_refl; reflexivity|].
  destruct (Nat.eqb_spec (f i) (f j)) as [E|_]; [|reflexivity]. elim N. auto.
Qed.

(** ** C252: LDA by variational inference, in batches *)
Section Lda.
  Context (psi : R -> R) (bound bound' : mat -> mat -> R) (K T : nat) (docs docs' : list words).
  Context (docLens docLens' prior prior' : vec) (vp : R) (fd ft fk : nat -> nat).
  Let D := length docs.
  (** How often each word occurs in each document; nothing else is known of how the new
      corpus is stored. *)
  Definition same_corpus : Prop :=
    length docs' = D /\
    (forall d t, d < D -> t < T -> VbProofs.count (nth d docs' []) t = VbProofs.count (nth (fd d) docs []) (ft t)) /\
    same_vec D fd docLens' docLens.

  Context (Hd : renumbers D fd) (Ht : renumbers T ft) (Hk : renumbers K fk).
  Context (SC : same_corpus) (SP : same_vec K fk prior' prior).

  Definition same_pair (a' a : mat * mat) : Prop :=
    same_mat K T fk ft (fst a') (fst a) /\ same_mat D K fd fk (snd a') (snd a).

  Lemma responsibility_same w' w m' m d k t : same_mat K T fk ft w' w -> same_vec K fk m' m -> d < D -> k < K -> t < T ->
    responsibility psi K T docLens' prior' w' d m' k t = responsibility psi K T docLens prior w (fd d) m (fk k) (ft t).
  Proof.
    intros Sw Sm Ld Lk Lt. unfold responsibility. cbv zeta. destruct SC as (_ & _ & SL).
    assert (E : forall j, j < K ->
      exp (psi (w' j t) - psi (vsum T (w' j)) + psi (prior' j + docLens' d * m' j))%R =
      exp (psi (w (fk j) (ft t)) - psi (vsum T (w (fk j))) + psi (prior (fk j) + docLens (fd d) * m (fk j)))%R).
    { intros j Lj. rewrite (Sw j t Lj Lt), (Sm j Lj), (SP j Lj), (SL d Ld). do 4 f_equal.
      apply (vsum_same T ft); [exact Ht|]. intros i Li. apply Sw; assumption. }
    rewrite (E k Lk). f_equal.
    apply (vsum_same K fk _ (fun j => exp (psi (w j (ft t)) - psi (vsum T (w j)) + psi (prior j + docLens (fd d) * m j)))%R); [exact Hk|].
    intros j Lj. apply E, Lj.
  Qed.

  Lemma field_step_same a' a : same_pair a' a ->
    same_pair (field_step psi K T docs' docLens' prior' vp a') (field_step psi K T docs docLens prior vp a).
  Proof.
    destruct a' as [w' m'], a as [w m]. intros [Sw Sm]. cbn [fst snd] in *. destruct SC as (SD & SN & SL).
    split; cbn [field_step fst snd].
    - intros k t Lk Lt. rewrite SD. f_equal. fold D.
      apply (vsum_same D fd _ (fun d => VbProofs.count (nth d docs []) (ft t) * responsibility psi K T docLens prior w d (m d) (fk k) (ft t))%R); [exact Hd|].
      intros d Ld. rewrite (SN d t Ld Lt). f_equal. apply responsibility_same; auto. intros j Lj. apply Sm; assumption.
    - intros d k Ld Lk. rewrite (SL d Ld). f_equal.
      apply (vsum_same T ft _ (fun t => VbProofs.count (nth (fd d) docs []) t * responsibility psi K T docLens prior w (fd d) (m (fd d)) (fk k) t)%R); [exact Ht|].
      intros t Lt. rewrite (SN d t Ld Lt). f_equal. apply responsibility_same; auto. intros j Lj. apply Sm; assumption.
  Qed.
End Lda.

Theorem C252_numbering : forall psi bound bound' K T docs docs' docLens docLens' prior prior' vp fd ft fk p
    word word' topics topics' flag flag',
  0 < K -> 0 < length docs -> VbProofs.corpus T docs docLens -> VbProofs.corpus T docs' docLens' -> p_rate p = RBatch ->
  renumbers (length docs) fd -> renumbers T ft -> renumbers K fk ->
  same_corpus T docs docs' docLens docLens' fd ft -> same_vec K fk prior' prior ->
  same_mat K T fk ft word' word -> same_mat (length docs) K fd fk topics' topics ->
  exists w tp log w' tp' log',
    VbModel.train psi bound K T docs docLens prior vp p word topics flag = Ok (w, tp, log) /\
    VbModel.train psi bound' K T docs' docLens' prior' vp p word' topics' flag' = Ok (w', tp', log') /\
    same_mat K T fk ft w' w /\ same_mat (length docs) K fd fk tp' tp.
Proof.
  intros psi bound bound' K T docs docs' docLens docLens' prior prior' vp fd ft fk p word word' topics topics' flag flag'
    HK HD HC HC' HR Hd Ht Hk SC SP Sw St.
  assert (SC0 := SC). destruct SC0 as (SD & SN & SL).
  destruct (C125_batch_training_is_mean_field psi bound K T docs docLens prior vp p word topics flag HK HD HC HR) as (w & tp & log & E & Ew & Et).
  destruct (C125_batch_training_is_mean_field psi bound' K T docs' docLens' prior' vp p word' topics' flag' HK) as (w' & tp' & log' & E' & Ew' & Et');
    [rewrite SD; exact HD|exact HC'|exact HR|].
  exists w, tp, log, w', tp', log'. split; [exact E|]. split; [exact E'|]. cbv zeta in *.
  set (a := (word, fun d k => ((topics d k - prior k) / docLens d)%R)) in *.
  set (a' := (word', fun d k => ((topics' d k - prior' k) / docLens' d)%R)) in *.
  assert (S0 : same_pair K T docs fd ft fk a' a).
  { split; [exact Sw|]. intros d k Ld Lk. cbn [a a' snd]. rewrite (St d k Ld Lk), (SP k Lk), (SL d Ld). reflexivity. }
  assert (S : same_pair K T docs fd ft fk (Nat.iter (Z.to_nat (p_iterations p)) (field_step psi K T docs' docLens' prior' vp) a')
                                       (Nat.iter (Z.to_nat (p_iterations p)) (field_step psi K T docs docLens prior vp) a)).
  { generalize (Z.to_nat (p_iterations p)). intros m. induction m as [|m IH]; [exact S0|]. cbn [Nat.iter nat_rect].
    apply field_step_same; assumption. }
  destruct S as [S1 S2]. split.
  - intros k t Lk Lt. rewrite (Ew' k t Lk Lt), (S1 k t Lk Lt). symmetry. apply Ew; [apply Hk|apply Ht]; assumption.
  - intros d k Ld Lk. rewrite (Et' d k) by (rewrite ?SD; assumption). rewrite (S2 d k Ld Lk), (SL d Ld), (SP k Lk).
    symmetry. apply Et; [apply Hd|apply Hk]; assumption.
Qed.

Definition first_docs : list words := [[(0, 1%R)]; [(1, 1%R)]].
Definition swapped_docs : list words := [[(1, 1%R)]; [(0, 1%R)]].
Lemma two_words_corpus u v : u < 2 -> v < 2 -> VbProofs.corpus 2 [[(u, 1%R)]; [(v, 1%R)]] (fun _ => 1%R).
Proof.
  intros Hu Hv.
  assert (X : forall u, u < 2 -> NoDup (map fst [(u, 1%R)]) /\ Forall (fun e => fst e < 2 /\ (0 <= snd e)%R) [(u, 1%R)]).
  { intros x Hx. split; [constructor; [intros []|constructor]|]. constructor; [cbn; split; [lia|lra]|constructor]. }
  split.
  - constructor; [apply X; exact Hu|]. constructor; [apply X; exact Hv|]. constructor.
  - intros d H. cbn in H. split; [|lra]. destruct d as [|[|]]; cbn; try lra; lia.
Qed.
Definition swap2 (i : nat) : nat := match i with 0 => 1 | 1 => 0 | _ => i end.
Lemma swap2_renumbers : renumbers 2 swap2.
Proof. split; [intros [|[|i]] H; cbn; lia|intros [|[|i]] [|[|j]] Hi Hj; cbn; lia]. Qed.
Lemma id_renumbers n : renumbers n (fun i => i).
Proof. split; auto. Qed.
Lemma kappa_1 b : kappa_step b 1 1 = Ok (/ (INR b + 1))%R.
Proof.
  unfold kappa_step. pose proof (pos_INR b). assert (rltb 0 (INR b + 1) = true) as -> by (apply rltb_true; lra).
  rewrite Rpower_Ropp, Rpower_1 by lra. reflexivity.
Qed.

(** Documents visited one at a time: the first one is also visited last, and counts twice. *)
Lemma minibatch_total psi bound u v vp word topics flag : u < 2 -> v < 2 -> exists w tp log,
  VbModel.train psi bound 2 2 [[(u, 1%R)]; [(v, 1%R)]] (fun _ => 1%R) (fun _ => 1%R) vp (new_plan 1 1 1 1 2 (5/10) RBatch) word topics flag = Ok (w, tp, log) /\
  (w 0%nat 0%nat + w 1%nat 0%nat = 2 * vp + (if Nat.eqb u 0 then 2/3 else 0) + (if Nat.eqb v 0 then 1/3 else 0))%R.
Proof.
  intros Hu Hv. set (p := new_plan 1 1 1 1 2 (5/10) RBatch).
  set (W := fun (b : nat) (w : mat) => match b with
     | 1 => (w 0%nat 0%nat + w 1%nat 0%nat = 2 * vp + (if Nat.eqb u 0 then 1 else 0))%R
     | 2 => (w 0%nat 0%nat + w 1%nat 0%nat = 2 * vp + (if Nat.eqb u 0 then 1/2 else 0) + (if Nat.eqb v 0 then 1/2 else 0))%R
     | 3 => (w 0%nat 0%nat + w 1%nat 0%nat = 2 * vp + (if Nat.eqb u 0 then 2/3 else 0) + (if Nat.eqb v 0 then 1/3 else 0))%R
     | _ => True end).
  destruct (train_spec psi bound 2 2 [[(u, 1%R)]; [(v, 1%R)]] (fun _ => 1%R) (fun _ => 1%R) vp p W word topics flag 1 3)
    as (w & tp & E & HW & _); [lia|cbn; lia|apply two_words_corpus; assumption|discriminate|reflexivity|lia| |exact I|].
  - intros b s d means grad log HWs [G1 G2]. unfold adjust. cbn [p p_rate new_plan Z.ltb Z.compare p_delay p_forget].
    rewrite kappa_1. cbn [bind]. set (x := (/ (INR b + 1))%R).
    assert (Ex : x = match b with 0 => 1%R | 1 => (1/2)%R | 2 => (1/3)%R | _ => x end) by (destruct b as [|[|[|b]]]; unfold x; cbn; try reflexivity; lra).
    clearbody x. eexists. split; [reflexivity|]. cbn [v_d v_means v_log v_word update_v]. do 3 (split; [reflexivity|]).
    specialize (G2 0). change (Z.to_nat 1) with 1 in G2. destruct b as [|[|[|b]]]; [| | |exact I]; cbn [W] in *; subst x;
      unfold vsum, visited_words, VbProofs.count in G2; cbn in G2 |- *; destruct (u =? 0), (v =? 0); lra.
  - exists w, tp. eexists. split; [exact E|]. exact HW.
Qed.
Theorem C252_minibatches_refuted : forall psi bound vp word topics flag, exists fd docs docs' p w tp log w' tp' log',
  renumbers (length docs) fd /\ VbProofs.corpus 2 docs (fun _ => 1%R) /\ VbProofs.corpus 2 docs' (fun _ => 1%R) /\
  p_rate p = RKappa /\
  same_corpus 2 docs docs' (fun _ => 1%R) (fun _ => 1%R) fd (fun t => t) /\
  VbModel.train psi bound 2 2 docs (fun _ => 1%R) (fun _ => 1%R) vp p word topics flag = Ok (w, tp, log) /\
  VbModel.train psi bound 2 2 docs' (fun _ => 1%R) (fun _ => 1%R) vp p word (fun d => topics (fd d)) flag = Ok (w', tp', log') /\
  ~ same_mat 2 2 (fun k => k) (fun t => t) w' w.
Proof.
  intros psi bound vp word topics flag.
  destruct (minibatch_total psi bound 0 1 vp word topics flag) as (w & tp & log & E & H); [lia|lia|].
  destruct (minibatch_total psi bound 1 0 vp word (fun d => topics (swap2 d)) flag) as (w' & tp' & log' & E' & H'); [lia|lia|].
  exists swap2, first_docs, swapped_docs, (new_plan 1 1 1 1 2 (5/10) RBatch), w, tp, log, w', tp', log'.
  split; [exact swap2_renumbers|]. split; [apply two_words_corpus; lia|]. split; [apply two_words_corpus; lia|].
  split; [reflexivity|]. split; [|split; [exact E|split; [exact E'|]]].
  - split; [reflexivity|]. split; [|intros d Hd; reflexivity]. intros [|[|d]] t Hd Ht; [reflexivity|reflexivity|cbn in Hd; lia].
  - intros S. cbn [Nat.eqb] in H, H'. pose proof (S 0 0 ltac:(lia) ltac:(lia)). pose proof (S 1 0 ltac:(lia) ltac:(lia)). lra.
Qed.

(** ** C253: the correlated topic model *)
(** What scipy's inv does: it inverts what can be inverted. *)
Definition inverts (K : nat) (inv : mat -> mat) : Prop :=
  forall M, symm K M -> (exists N, is_inverse K M N) -> is_inverse K M (inv M).

Lemma right_inverses K M N X i j : symm K M -> is_inverse K M N -> is_inverse K M X -> i < K -> j < K -> N j i = X i j.
Proof.
  intros SM HN HX Hi Hj.
  assert (E1 : vsum K (fun l => vsum K (fun m => N l i * M l m * X m j)%R) = N j i).
  { rewrite (vsum_ext K _ (fun l => eye j l * N l i)%R); [apply (vsum_eye K j (fun l => N l i)), Hj|].
    intros l Hl. rewrite (vsum_ext K _ (fun m => N l i * (M l m * X m j))%R) by (intros; ring).
    rewrite vsum_scale, (HX l j Hl Hj). unfold eye. rewrite (Nat.eqb_sym j l). ring. }
  rewrite <- E1, vsum_swap. rewrite (vsum_ext K _ (fun m => eye i m * X m j)%R); [apply (vsum_eye K i (fun l => X l j)), Hi|].
  intros m Hm. rewrite (vsum_ext K _ (fun l => (M m l * N l i) * X m j)%R).
  - rewrite vsum_scale_r, (HN m i Hm Hi). unfold eye. rewrite (Nat.eqb_sym i m). ring.
  - intros l Hl. rewrite (SM m l Hm Hl). ring.
Qed.
Lemma inverse_unique K M N X : symm K M -> is_inverse K M N -> is_inverse K M X ->
  forall i j, i < K -> j < K -> N i j = X i j.
Proof.
  intros SM HN HX i j Hi Hj. rewrite (right_inverses K M N X j i SM HN HX Hj Hi). symmetry.
  apply (right_inverses K M X X j i SM HX HX Hj Hi).
Qed.
Lemma inverse_symm K M N : symm K M -> is_inverse K M N -> symm K N.
Proof. intros SM HN i j Hi Hj. apply (right_inverses K M N N j i SM HN HN Hj Hi). Qed.
Lemma inverse_renumber K f M' M N : renumbers K f -> same_mat K K f f M' M -> is_inverse K M N ->
  is_inverse K M' (fun i j => N (f i) (f j)).
Proof.
  intros Hf S HN i j Hi Hj. rewrite (eye_same K f Hf i j Hi Hj), <- (HN (f i) (f j)) by (apply Hf; assumption).
  apply (vsum_same K f _ (fun l => M (f i) l * N l (f j))%R Hf). intros l Hl. rewrite (S i l Hi Hl). reflexivity.
Qed.
Lemma symm_renumber K f M' M : renumbers K f -> same_mat K K f f M' M -> symm K M -> symm K M'.
Proof. intros Hf S H i j Hi Hj. rewrite (S i j Hi Hj), (S j i Hj Hi). apply H; apply Hf; assumption. Qed.
Lemma inv_same K f inv M' M : renumbers K f -> inverts K inv -> same_mat K K f f M' M -> symm K M ->
  (exists N, is_inverse K M N) -> same_mat K K f f (inv M') (inv M).
Proof.
  intros Hf HI S SM EN i j Hi Hj. pose proof (HI M SM EN) as H0.
  pose proof (inverse_renumber K f M' M _ Hf S H0) as H1.
  pose proof (symm_renumber K f M' M Hf S SM) as SM'.
  apply (inverse_unique K M' (inv M') (fun i j => inv M (f i) (f j)) SM' (HI M' SM' (ex_intro _ _ H1)) H1 i j Hi Hj).
Qed.
Lemma inv_ext K inv M' M : inverts K inv -> same_mat K K (fun i => i) (fun i => i) M' M -> symm K M ->
  (exists N, is_inverse K M N) -> forall i j, i < K -> j < K -> inv M' i j = inv M i j.
Proof. intros HI S SM EN. exact (inv_same K _ inv M' M (id_renumbers K) HI S SM EN). Qed.

Lemma eye_symm K : symm K eye.
Proof. intros i j _ _. unfold eye. rewrite Nat.eqb_sym. reflexivity. Qed.
Lemma eye_inverse K : is_inverse K eye eye.
Proof. intros i j Hi Hj. apply (vsum_eye K i (fun l => eye l j)), Hi. Qed.
Lemma inv_eye K inv : inverts K inv -> forall i j, i < K -> j < K -> inv eye i j = eye i j.
Proof.
  intros HI. pose proof (HI eye (eye_symm K) (ex_intro _ _ (eye_inverse K))) as H.
  apply (inverse_unique K eye _ _ (eye_symm K) H (eye_inverse K)).
Qed.
Lemma eye_col K j : j < K -> vsum K (fun l => eye l j) = 1%R.
Proof.
  intros Hj. rewrite (vsum_ext K _ (fun l => eye j l * 1)%R); [apply (vsum_eye K j (fun _ => 1%R)), Hj|].
  intros l _. unfold eye. rewrite (Nat.eqb_sym l j). ring.
Qed.
(** The matrix of line 281 has an inverse, known in closed form. *)
Lemma lhs_inverse K n isigT d : (forall i j, i < K -> j < K -> isigT i j = eye i j) -> (0 <= n d)%R ->
  symm K (lhs K n isigT d) /\ exists N, is_inverse K (lhs K n isigT d) N.
Proof.
  intros HE Hn. pose proof (pos_INR K) as HK.
  set (a := (1 + n d / 2)%R). set (b := (- (n d / 2) / (INR K + 1))%R).
  assert (E : forall i j, i < K -> j < K -> lhs K n isigT d i j = (a * eye i j + b)%R).
  { intros i j Hi Hj. unfold lhs, bohning, a, b. rewrite (HE i j Hi Hj). field. lra. }
  split.
  { intros i j Hi Hj. rewrite !E by assumption. unfold eye. rewrite (Nat.eqb_sym i j). reflexivity. }
  assert (Ha : (a <> 0)%R) by (unfold a; lra).
  assert (Hb : (0 < a + INR K * b)%R).
  { replace (a + INR K * b)%R with (1 + n d / 2 * / (INR K + 1))%R by (unfold a, b; field; lra).
    assert (0 <= n d / 2 * / (INR K + 1))%R; [|lra]. apply Rmult_le_pos; [lra|]. left. apply Rinv_0_lt_compat. lra. }
  set (c := (b / (a + INR K * b))%R).
  exists (fun i j => (eye i j - c) / a)%R. intros i j Hi Hj.
  rewrite (vsum_ext K _ (fun l => eye i l * (eye l j - c) + (b / a) * (eye l j + - c))%R).
  2:{ intros l Hl. rewrite (E i l Hi Hl). field. exact Ha. }
  rewrite vsum_plus, vsum_scale, vsum_plus, vsum_const, (eye_col K j Hj).
  rewrite (vsum_eye K i (fun l => eye l j - c)%R Hi). unfold c. field. split; [lra|exact Ha].
Qed.

Section Ctm.
  Context (K D T : nat) (W' W : mat) (n' n : vec) (beta : R) (inv : mat -> mat) (fd ft fk : nat -> nat).
  Context (Hd : renumbers D fd) (Ht : renumbers T ft) (Hk : renumbers K fk).
  Context (SW : same_mat D T fd ft W' W) (Sn : same_vec D fd n' n) (Hn : forall d, d < D -> (0 <= n d)%R).
  Context (HI : inverts K inv).

  (** Two states of the model that differ in the numbering only. *)
  Definition same_ctm (s' s : ctm) : Prop :=
    same_vec K fk (c_mean s') (c_mean s) /\ same_mat K K fk fk (c_sigT s') (c_sigT s) /\
    same_mat K T fk ft (c_vocab s') (c_vocab s) /\ same_mat D K fd fk (c_means s') (c_means s) /\
    same_mat D K fd fk (c_exp s') (c_exp s) /\ same_mat D K fd fk (c_varcs s') (c_varcs s).
  Definition same_arrays (q' q : qarrays) : Prop :=
    same_mat D K fd fk (q_means q') (q_means q) /\ same_mat D K fd fk (q_exp q') (q_exp q) /\
    same_mat D K fd fk (q_varcs q') (q_varcs q).

  Lemma exp_means_same m' m : same_mat D K fd fk m' m -> same_mat D K fd fk (exp_means K m') (exp_means K m).
  Proof.
    intros S d k Ld Lk. unfold exp_means. rewrite (S d k Ld Lk). do 2 f_equal. apply (vmax_same K fk); [exact Hk|].
    intros j Lj. apply S; assumption.
  Qed.
  Lemma quotient_same e' e v' v : same_mat D K fd fk e' e -> same_mat K T fk ft v' v ->
    same_mat D T fd ft (quotient K W' e' v') (quotient K W e v).
  Proof.
    intros Se Sv d t Ld Lt. unfold quotient. rewrite (SW d t Ld Lt). f_equal.
    apply (vsum_same K fk _ (fun k => e (fd d) k * v k (ft t))%R Hk). intros k Lk.
    rewrite (Se d k Ld Lk), (Sv k t Lk Lt). reflexivity.
  Qed.
  Lemma norm_rows_same f m' m : same_mat K T f ft m' m -> same_mat K T f ft (norm_rows T m') (norm_rows T m).
  Proof.
    intros S k t Lk Lt. unfold norm_rows. rewrite (S k t Lk Lt). f_equal. apply (vsum_same T ft); [exact Ht|].
    intros u Lu. apply S; assumption.
  Qed.
  Lemma vocab_update_same e' e v' v : same_mat D K fd fk e' e -> same_mat K T fk ft v' v ->
    same_mat K T fk ft (vocab_update K D T W' beta e' v') (vocab_update K D T W beta e v).
  Proof.
    intros Se Sv. apply norm_rows_same. intros k t Lk Lt. f_equal. unfold vocab_counts. rewrite (Sv k t Lk Lt). f_equal.
    apply (vsum_same D fd _ (fun d => quotient K W e v d (ft t) * e d (fk k))%R Hd). intros d Ld.
    rewrite (quotient_same e' e v' v Se Sv d t Ld Lt), (Se d k Ld Lk). reflexivity.
  Qed.
  Lemma token_weights_same e' e v' v : same_mat D K fd fk e' e -> same_mat K T fk ft v' v ->
    same_mat D K fd fk (token_weights K T W' e' v') (token_weights K T W e v).
  Proof.
    intros Se Sv d k Ld Lk. unfold token_weights. rewrite (Se d k Ld Lk). f_equal.
    apply (vsum_same T ft _ (fun t => quotient K W e v (fd d) t * v (fk k) t)%R Ht). intros t Lt.
    rewrite (quotient_same e' e v' v Se Sv d t Ld Lt), (Sv k t Lk Lt). reflexivity.
  Qed.
  Lemma bohning_same : same_mat K K fk fk (bohning K) (bohning K).
  Proof. intros i j Li Lj. unfold bohning. rewrite (eye_same K fk Hk i j Li Lj). reflexivity. Qed.
  Lemma rhs_same p' p V' V m' m : same_mat D K fd fk p' p -> same_mat D K fd fk V' V -> same_mat D K fd fk m' m ->
    same_mat D K fd fk (rhs K n' p' V' m') (rhs K n p V m).
  Proof.
    intros Sp SV Sm d k Ld Lk. unfold rhs. rewrite (Sp d k Ld Lk), (SV d k Ld Lk), (Sn d Ld).
    rewrite (vsum_same K fk (fun j => m' d j * bohning K j k)%R (fun j => m (fd d) j * bohning K j (fk k))%R Hk).
    - rewrite (vsoftmax_same K fk (m' d) (m (fd d)) Hk); [reflexivity| |exact Lk]. intros j Lj. apply Sm; assumption.
    - intros j Lj. rewrite (Sm d j Ld Lj), (bohning_same j k Lj Lk). reflexivity.
  Qed.
  Lemma lhs_same S' S d : same_mat K K fk fk S' S -> d < D -> same_mat K K fk fk (lhs K n' S' d) (lhs K n S (fd d)).
  Proof. intros SS Ld i j Li Lj. unfold lhs. rewrite (SS i j Li Lj), (Sn d Ld), (bohning_same i j Li Lj). reflexivity. Qed.
  Lemma new_means_same S' S r' r : same_mat K K fk fk S' S ->
    (forall d, d < D -> symm K (lhs K n S d) /\ exists N, is_inverse K (lhs K n S d) N) ->
    same_mat D K fd fk r' r -> same_mat D K fd fk (new_means K n' inv S' r') (new_means K n inv S r).
  Proof.
    intros SS HS Sr d k Ld Lk. unfold new_means.
    apply (vsum_same K fk _ (fun j => inv (lhs K n S (fd d)) (fk k) j * r (fd d) j)%R Hk). intros j Lj.
    destruct (HS (fd d)) as [H1 H2]; [apply Hd, Ld|].
    rewrite (Sr d j Ld Lj), (inv_same K fk inv _ _ Hk HI (lhs_same S' S d SS Ld) H1 H2 k j Lk Lj). reflexivity.
  Qed.
  Lemma prior_same S' S mu' mu : same_mat K K fk fk S' S -> same_vec K fk mu' mu ->
    same_mat D K fd fk (ctm_prior K S' mu') (ctm_prior K S mu).
  Proof.
    intros SS Sm d k Ld Lk. unfold ctm_prior. apply (vsum_same K fk _ (fun j => S (fk k) j * mu j)%R Hk).
    intros j Lj. rewrite (SS k j Lk Lj), (Sm j Lj). reflexivity.
  Qed.

  Lemma train_iter_same fast s' s : same_ctm s' s ->
    alike same_ctm (train_iter K D T W' n' beta inv fast s') (train_iter K D T W n beta inv fast s).
  Proof.
    intros (_ & _ & Sv & Sm & _ & _). unfold train_iter. destruct (negb fast && (D <? 2)); [reflexivity|].
    destruct (D =? 1); [reflexivity|]. cbv zeta.
    assert (Smu : same_vec K fk (col_mean D (c_means s')) (col_mean D (c_means s))).
    { intros k Lk. unfold col_mean. f_equal. apply (vsum_same D fd _ (fun d => c_means s d (fk k)) Hd). intros d Ld. apply Sm; assumption. }
    assert (SI : same_mat K K fk fk (inv eye) (inv eye)).
    { apply (inv_same K fk); [exact Hk|exact HI|apply eye_same, Hk|apply eye_symm|exists eye; apply eye_inverse]. }
    pose proof (exp_means_same _ _ Sm) as Se.
    pose proof (vocab_update_same _ _ _ _ Se Sv) as Sv1.
    pose proof (token_weights_same _ _ _ _ Se Sv1) as SV.
    pose proof (rhs_same _ _ _ _ _ _ (prior_same _ _ _ _ SI Smu) SV Sm) as Sr.
    cbn [alike]. split; [exact Smu|]. split; [apply eye_same, Hk|]. cbn [c_vocab c_means c_exp c_varcs].
    split; [exact Sv1|]. split.
    { destruct fast.
      - intros d k Ld Lk. cbv beta. rewrite (Sr d k Ld Lk), (Sn d Ld). unfold eye. rewrite !Nat.eqb_refl. reflexivity.
      - apply new_means_same; [exact SI| |exact Sr]. intros d Ld. apply lhs_inverse; [apply inv_eye, HI|apply Hn, Ld]. }
    split; [exact Se|]. intros d k Ld Lk. rewrite (Sn d Ld). unfold eye. rewrite !Nat.eqb_refl. reflexivity.
  Qed.

  Lemma train_loop_same fast stop' stop : (forall i s' s, same_ctm s' s -> stop' i s' = stop i s) ->
    forall todo itr s' s, same_ctm s' s ->
    alike same_ctm (train_loop K D T W' n' beta inv fast stop' itr todo s') (train_loop K D T W n beta inv fast stop itr todo s).
  Proof.
    intros Hs. induction todo as [|todo IH]; intros itr s' s S; [exact S|]. cbn [train_loop].
    pose proof (train_iter_same fast s' s S) as X.
    destruct (train_iter K D T W' n' beta inv fast s') as [a'|e'], (train_iter K D T W n beta inv fast s) as [a|e]; cbn [alike bind] in *; try contradiction; [|exact X].
    rewrite (Hs itr a' a X). destruct (stop itr a); [exact X|apply IH, X].
  Qed.

  Lemma query_loop_same fast perp' perp S' S v' v p' p c' c :
    (forall m' m, same_mat D K fd fk m' m -> perp' m' = perp m) ->
    same_mat K K fk fk S' S -> (forall d, d < D -> symm K (lhs K n S d) /\ exists N, is_inverse K (lhs K n S d) N) ->
    same_mat K T fk ft v' v -> same_mat D K fd fk p' p -> same_mat D K fd fk c' c ->
    forall todo itr last q' q, same_arrays (s_arrays q') (s_arrays q) -> s_same q' = s_same q ->
      same_mat D K fd fk (s_means q') (s_means q) ->
    same_arrays (s_arrays (query_loop K T W' n' inv fast perp' S' v' p' c' itr todo last q'))
                (s_arrays (query_loop K T W n inv fast perp S v p c itr todo last q)).
  Proof.
    intros HP SS HS Sv Sp Sc. induction todo as [|todo IH]; intros itr last q' q SA SB SM; [exact SA|].
    cbn [query_loop].
    assert (X : same_arrays (s_arrays (query_iter K T W' n' inv fast S' v' p' c' q')) (s_arrays (query_iter K T W n inv fast S v p c q)) /\
                s_same (query_iter K T W' n' inv fast S' v' p' c' q') = s_same (query_iter K T W n inv fast S v p c q) /\
                same_mat D K fd fk (s_means (query_iter K T W' n' inv fast S' v' p' c' q')) (s_means (query_iter K T W n inv fast S v p c q))).
    { unfold query_iter. cbv zeta. cbn [s_arrays s_same s_means q_means q_exp q_varcs]. rewrite SB.
      pose proof (exp_means_same _ _ SM) as Se. pose proof (token_weights_same _ _ _ _ Se Sv) as SV.
      pose proof (rhs_same _ _ _ _ _ _ Sp SV SM) as Sr.
      assert (Snew : same_mat D K fd fk
         (if fast then (fun d k => c' d k * rhs K n' p' (token_weights K T W' (exp_means K (s_means q')) v') (s_means q') d k)%R
          else new_means K n' inv S' (rhs K n' p' (token_weights K T W' (exp_means K (s_means q')) v') (s_means q')))
         (if fast then (fun d k => c d k * rhs K n p (token_weights K T W (exp_means K (s_means q)) v) (s_means q) d k)%R
          else new_means K n inv S (rhs K n p (token_weights K T W (exp_means K (s_means q)) v) (s_means q)))).
      { destruct fast; [|apply new_means_same; assumption]. intros d k Ld Lk. rewrite (Sc d k Ld Lk), (Sr d k Ld Lk). reflexivity. }
      destruct SA as (A1 & A2 & A3). split; [|split; [reflexivity|exact Snew]].
      split; [|split; [exact Se|exact A3]]. cbn [q_means]. destruct (s_same q && negb fast); [exact Snew|].
      destruct (s_same q); [|exact A1]. intros d k Ld Lk. apply (vsoftmax_same K fk _ _ Hk); [|exact Lk]. intros j Lj. apply SM; assumption. }
    destruct X as (XA & XB & XM). rewrite (HP _ _ XM). destruct ((20 <? itr) && rltb (last - perp _) 1); [exact XA|].
    apply IH; assumption.
  Qed.
End Ctm.

Theorem C253_training : forall K D T W' W n' n beta inv fd ft fk fast stop' stop iterations s' s,
  renumbers D fd -> renumbers T ft -> renumbers K fk -> inverts K inv ->
  same_mat D T fd ft W' W -> same_vec D fd n' n -> (forall d, d < D -> (0 <= n d)%R) ->
  (forall i a' a, same_ctm K D T fd ft fk a' a -> stop' i a' = stop i a) ->
  same_ctm K D T fd ft fk s' s ->
  alike (same_ctm K D T fd ft fk) (ctm_train K D T W' n' beta inv fast stop' iterations s')
                                 (ctm_train K D T W n beta inv fast stop iterations s).
Proof. intros. apply train_loop_same; assumption. Qed.

Theorem C253_query : forall K D T W' W n' n inv fd ft fk fast perp' perp last iterations mu' mu sigT' sigT vocab' vocab q' q,
  renumbers D fd -> renumbers T ft -> renumbers K fk -> inverts K inv ->
  same_mat D T fd ft W' W -> same_vec D fd n' n -> 
  (forall m' m, same_mat D K fd fk m' m -> perp' m' = perp m) ->
  symm K sigT -> (exists N, is_inverse K sigT N) ->
  (forall d, d < D -> exists N, is_inverse K (lhs K n (inv sigT) d) N) ->
  same_vec K fk mu' mu -> same_mat K K fk fk sigT' sigT -> same_mat K T fk ft vocab' vocab -> same_arrays K D fd fk q' q ->
  alike (same_arrays K D fd fk) (ctm_query K D T W' n' inv fast perp' last iterations mu' sigT' vocab' q')
                               (ctm_query K D T W n inv fast perp last iterations mu sigT vocab q).
Proof.
  intros K D T W' W n' n inv fd ft fk fast perp' perp last iterations mu' mu sigT' sigT vocab' vocab q' q
    Hd Ht Hk HI SW Sn HP SY EN EL Smu SS Sv SA. unfold ctm_query. destruct (D =? 1); [reflexivity|]. cbn [alike].
  pose proof (inv_same K fk inv _ _ Hk HI SS SY EN) as SI.
  pose proof (inverse_symm K sigT _ SY (HI sigT SY EN)) as SYI.
  apply (query_loop_same K D T W' W n' n inv fd ft fk); try assumption.
  - intros d Ld. split; [|apply EL, Ld]. intros i j Li Lj. unfold lhs, bohning, eye. rewrite (SYI i j Li Lj), (Nat.eqb_sym i j). reflexivity.
  - apply prior_same; assumption.
  - intros d k Ld Lk. rewrite (Sn d Ld), (SI k k Lk Lk). reflexivity.
  - reflexivity.
  - apply SA.
Qed.

(** ** C254: the mixture of multinomials *)
(** Lists and tables of numbers given by functions of the positions. *)
Definition line (n : nat) (f : vec) : list R := map f (seq 0 n).
Definition grid (m n : nat) (f : mat) : list (list R) := map (fun i => line n (f i)) (seq 0 m).

Lemma line_length n f : length (line n f) = n.
Proof. unfold line. rewrite map_length, seq_length. reflexivity. Qed.
Lemma grid_length m n f : length (grid m n f) = m.
Proof. unfold grid. rewrite map_length, seq_length. reflexivity. Qed.
Lemma line_ext n f g : (forall i, i < n -> f i = g i) -> line n f = line n g.
Proof. intros H. apply map_ext_in. intros i I. apply in_seq in I. apply H. lia. Qed.
Lemma grid_ext m n f g : (forall i j, i < m -> j < n -> f i j = g i j) -> grid m n f = grid m n g.
Proof. intros H. apply map_ext_in. intros i I. apply in_seq in I. apply line_ext. intros j Hj. apply H; lia. Qed.
Lemma line_nth n f i : i < n -> nth i (line n f) 0%R = f i.
Proof.
  intros H. unfold line. rewrite (nth_indep _ 0%R (f 0)) by (rewrite map_length, seq_length; exact H).
  rewrite map_nth, seq_nth by exact H. reflexivity.
Qed.
Lemma map_line g n f : map g (line n f) = line n (fun i => g (f i)).
Proof. unfold line. apply map_map. Qed.
Lemma combine_maps {A B C} (f : A -> B) (g : A -> C) l : combine (map f l) (map g l) = map (fun a => (f a, g a)) l.
Proof. induction l as [|a l IH]; [reflexivity|]. cbn. f_equal. exact IH. Qed.
Lemma dot_line n f g : MixModel.dot (line n f) (line n g) = vsum n (fun i => f i * g i)%R.
Proof. unfold MixModel.dot, line. rewrite combine_maps, map_map. reflexivity. Qed.
Lemma add_line n f g : add_rows (line n f) (line n g) = line n (fun i => f i + g i)%R.
Proof. unfold add_rows, line. rewrite combine_maps, map_map. reflexivity. Qed.
Lemma rsum_line n f : rsum (line n f) = vsum n f.
Proof. reflexivity. Qed.
Lemma col_grid m n f j : j < n -> col (grid m n f) j = line m (fun i => f i j).
Proof. intros H. unfold col, grid. rewrite map_map. apply map_ext. intros i. apply line_nth, H. Qed.
Lemma softmax_line n f : 0 < n -> softmax_row (line n f) = Ok (line n (fun i => exp (f i) / vsum n (fun j => exp (f j)))%R).
Proof.
  intros H. rewrite softmax_row_spec by (intros E; apply (f_equal (@length R)) in E; rewrite line_length in E; cbn in E; lia).
  unfold softmax_of. rewrite !map_line. reflexivity.
Qed.
Lemma mapM_all_ok {A B} (f : A -> res B) g l : (forall a, In a l -> f a = Ok (g a)) -> mapM f l = Ok (map g l).
Proof.
  induction l as [|a l IH]; intros H; [reflexivity|]. cbn [mapM map]. rewrite (H a (in_eq _ _)). cbn [bind].
  rewrite IH by auto using in_cons. reflexivity.
Qed.
Lemma mapM_map_in {A B C} (f : B -> res C) (g : A -> B) l : mapM f (map g l) = mapM (fun a => f (g a)) l.
Proof. induction l as [|a l IH]; [reflexivity|]. cbn [mapM map]. rewrite IH. reflexivity. Qed.

Section Mom.
  Context (psi : R -> R) (K D T : nat) (HK : 0 < K).

  Definition mom_score (W w : mat) (c : vec) (d k : nat) : R :=
    (vsum T (fun t => W d t * (psi (w k t) - psi (vsum T (w k)))) + (psi (c k) - psi (vsum K c)))%R.
  Definition mom_topics (W w : mat) (c : vec) : mat := fun d k =>
    (exp (mom_score W w c d k) / vsum K (fun j => exp (mom_score W w c d j)))%R.
  Lemma e_step_grid W w c : e_step psi (grid D T W) (grid K T w) (line K c) = Ok (grid D K (mom_topics W w c)).
  Proof.
    unfold e_step. unfold grid at 2. rewrite mapM_map_in. apply mapM_all_ok. intros d _.
    unfold ln_words, ln_corpus. unfold grid. rewrite !map_map.
    rewrite (map_ext_in _ (fun k => vsum T (fun t => W d t * (psi (w k t) - psi (vsum T (w k)))))%R).
    2:{ intros k _. rewrite map_line, dot_line. reflexivity. }
    rewrite map_line. change (map (fun k => vsum T (fun t => W d t * (psi (w k t) - psi (vsum T (w k))))%R) (seq 0 K)) with
      (line K (fun k => vsum T (fun t => W d t * (psi (w k t) - psi (vsum T (w k))))%R)).
    rewrite add_line, softmax_line by exact HK. reflexivity.
  Qed.
  Lemma change_grid a b : change (grid D K a) (grid D K b) = vsum D (fun d => vsum K (fun k => Rabs (a d k - b d k))).
  Proof.
    unfold change, grid. rewrite combine_maps, map_map. unfold vsum at 1. f_equal. apply map_ext. intros d.
    unfold line. rewrite combine_maps, map_map. reflexivity.
  Qed.
  Lemma new_corpus_grid t pr : new_corpus (grid D K t) (line K pr) = line K (fun k => vsum D (fun d => t d k) + pr k)%R.
  Proof.
    unfold new_corpus. rewrite line_length. apply line_ext. intros k Hk. rewrite (col_grid D K t k Hk), line_nth by exact Hk. reflexivity.
  Qed.
  Lemma new_words_grid W t vp : new_words (grid D T W) (grid D K t) K (line T vp) =
    grid K T (fun k u => vsum D (fun d => W d u * t d k) + vp u)%R.
  Proof.
    unfold new_words. rewrite line_length. unfold grid at 3. apply map_ext_in. intros k I. apply in_seq in I.
    apply line_ext. intros u Hu. rewrite (col_grid D T W u Hu), (col_grid D K t k), dot_line, line_nth by lia. reflexivity.
  Qed.

  Context (W' W : mat) (fd ft fk : nat -> nat) (Hd : renumbers D fd) (Ht : renumbers T ft) (Hk : renumbers K fk).
  Context (SW : same_mat D T fd ft W' W) (pr' pr vp' vp : vec) (Spr : same_vec K fk pr' pr) (Svp : same_vec T ft vp' vp).

  (** Results of training that differ in the numbering only. *)
  Definition same_mom (r' r : list (list R) * list R * list (list R)) : Prop :=
    exists w' w c' c t' t, r' = (grid K T w', line K c', grid D K t') /\ r = (grid K T w, line K c, grid D K t) /\
      same_mat K T fk ft w' w /\ same_vec K fk c' c /\ same_mat D K fd fk t' t.
  Definition same_topics (r' r : list (list R)) : Prop :=
    exists t' t, r' = grid D K t' /\ r = grid D K t /\ same_mat D K fd fk t' t.

  Lemma mom_topics_same w' w c' c : same_mat K T fk ft w' w -> same_vec K fk c' c ->
    same_mat D K fd fk (mom_topics W' w' c') (mom_topics W w c).
  Proof.
    intros Sw Sc d k Ld Lk.
    assert (E : forall j, j < K -> mom_score W' w' c' d j = mom_score W w c (fd d) (fk j)).
    { intros j Lj. unfold mom_score. rewrite (Sc j Lj), (vsum_same K fk c' c Hk Sc). f_equal.
      apply (vsum_same T ft _ (fun t => W (fd d) t * (psi (w (fk j) t) - psi (vsum T (w (fk j)))))%R Ht).
      intros t Lt. rewrite (SW d t Ld Lt), (Sw j t Lj Lt). do 3 f_equal. apply (vsum_same T ft); [exact Ht|].
      intros u Lu. apply Sw; assumption. }
    unfold mom_topics. rewrite (E k Lk). f_equal.
    apply (vsum_same K fk _ (fun j => exp (mom_score W w c (fd d) j)) Hk). intros j Lj. rewrite (E j Lj). reflexivity.
  Qed.
  Lemma change_same a' a b' b : same_mat D K fd fk a' a -> same_mat D K fd fk b' b ->
    change (grid D K a') (grid D K b') = change (grid D K a) (grid D K b).
  Proof.
    intros Sa Sb. rewrite !change_grid.
    apply (vsum_same D fd _ (fun d => vsum K (fun k => Rabs (a d k - b d k))) Hd). intros d Ld.
    apply (vsum_same K fk _ (fun k => Rabs (a (fd d) k - b (fd d) k)) Hk). intros k Lk.
    rewrite (Sa d k Ld Lk), (Sb d k Ld Lk). reflexivity.
  Qed.

  Lemma em_loop_same debug freq : forall todo itr w' w c' c t' t,
    same_mat K T fk ft w' w -> same_vec K fk c' c -> same_mat D K fd fk t' t ->
    alike same_mom
      (em_loop psi todo itr debug freq (grid D T W') (line K pr') (line T vp') (grid K T w') (line K c') (grid D K t'))
      (em_loop psi todo itr debug freq (grid D T W) (line K pr) (line T vp) (grid K T w) (line K c) (grid D K t)).
  Proof.
    induction todo as [|todo IH]; intros itr w' w c' c t' t Sw Sc St.
    - cbn [em_loop alike]. exists w', w, c', c, t', t. auto.
    - cbn [em_loop]. rewrite !e_step_grid. cbn [bind]. cbv zeta.
      pose proof (mom_topics_same w' w c' c Sw Sc) as Sz.
      unfold small_change. rewrite !grid_length, !line_length, (change_same _ _ _ _ St Sz).
      destruct (rltb _ _).
      { cbn [alike]. do 6 eexists. split; [reflexivity|]. split; [reflexivity|]. auto. }
      destruct (measures debug freq itr); [reflexivity|]. rewrite !new_corpus_grid, !new_words_grid. apply IH; [| |exact Sz].
      + intros k u Lk Lu. rewrite (Svp u Lu). f_equal.
        apply (vsum_same D fd _ (fun d => W d (ft u) * mom_topics W w c d (fk k))%R Hd). intros d Ld.
        rewrite (SW d u Ld Lu), (Sz d k Ld Lk). reflexivity.
      + intros k Lk. rewrite (Spr k Lk). f_equal. apply (vsum_same D fd _ (fun d => mom_topics W w c d (fk k)) Hd).
        intros d Ld. apply Sz; assumption.
  Qed.

  Lemma mom_query_same w' w c' c : same_mat K T fk ft w' w -> same_vec K fk c' c -> forall todo t' t,
    same_mat D K fd fk t' t ->
    alike same_topics (MixModel.query_loop psi todo (grid D T W') (grid K T w') (line K c') (grid D K t'))
                      (MixModel.query_loop psi todo (grid D T W) (grid K T w) (line K c) (grid D K t)).
  Proof.
    intros Sw Sc. pose proof (mom_topics_same w' w c' c Sw Sc) as Sz.
    induction todo as [|todo IH]; intros t' t St.
    - cbn [MixModel.query_loop alike]. exists t', t. auto.
    - cbn [MixModel.query_loop]. rewrite !e_step_grid. cbn [bind].
      unfold small_change. rewrite !grid_length, !line_length, (change_same _ _ _ _ St Sz).
      destruct (rltb _ _); [|apply IH, Sz]. cbn [alike]. do 2 eexists. split; [reflexivity|]. split; [reflexivity|exact Sz].
  Qed.
End Mom.

Theorem C254_training : forall psi K D T W' W fd ft fk pr' pr vp' vp len' len iterations debug freq w' w c' c t' t,
  0 < K -> renumbers D fd -> renumbers T ft -> renumbers K fk ->
  same_mat D T fd ft W' W -> same_vec D fd len' len -> same_vec K fk pr' pr -> same_vec T ft vp' vp ->
  same_mat K T fk ft w' w -> same_vec K fk c' c -> same_mat D K fd fk t' t ->
  alike (same_mom K D T fd ft fk)
    (em_train psi iterations debug freq (grid D T W') (line D len') (line K pr') (line T vp') (grid K T w') (line K c') (grid D K t'))
    (em_train psi iterations debug freq (grid D T W) (line D len) (line K pr) (line T vp) (grid K T w) (line K c) (grid D K t)).
Proof.
  intros psi K D T W' W fd ft fk pr' pr vp' vp len' len iterations debug freq w' w c' c t' t HK Hd Ht Hk SW Sl Sp Sv Sw Sc St.
  unfold em_train.
  assert (existsb (fun l => rltb l 1) (line D len') = existsb (fun l => rltb l 1) (line D len)) as ->.
  { apply eq_true_iff_eq. rewrite !existsb_exists. split; intros (x & I & E); unfold line in I; apply in_map_iff in I;
      destruct I as (d & <- & I); apply in_seq in I.
    - exists (len (fd d)). split; [apply in_map, in_seq; destruct Hd as [Hd _]; specialize (Hd d); lia|]. rewrite <- (Sl d) by lia. exact E.
    - destruct (renumbers_onto D fd d Hd) as (i & Li & <-); [lia|]. exists (len' i). split; [apply in_map, in_seq; lia|].
      rewrite (Sl i Li). exact E. }
  destruct (existsb _ _); [reflexivity|]. apply em_loop_same; assumption.
Qed.

Theorem C254_query : forall psi K D T W' W fd ft fk iterations w' w c' c t' t,
  0 < K -> renumbers D fd -> renumbers T ft -> renumbers K fk ->
  same_mat D T fd ft W' W -> same_mat K T fk ft w' w -> same_vec K fk c' c -> same_mat D K fd fk t' t ->
  alike (same_topics K D fd fk) (em_query psi iterations (grid D T W') (grid K T w') (line K c') (grid D K t'))
                                (em_query psi iterations (grid D T W) (grid K T w) (line K c) (grid D K t)).
Proof.
  intros psi K D T W' W fd ft fk iterations w' w c' c t' t HK Hd Ht Hk SW Sw Sc St. unfold em_query.
  pose proof (mom_query_same psi K D T HK W' W fd ft fk Hd Ht Hk SW w' w c' c Sw Sc iterations t' t St) as X.
  destruct (MixModel.query_loop psi iterations (grid D T W') _ _ _) as [a'|e'], (MixModel.query_loop psi iterations (grid D T W) _ _ _) as [a|e];
    cbn [alike bind] in *; try contradiction; [|exact X]. destruct (iterations =? 0); [reflexivity|exact X].
Qed.

(** Queries of the side topic model; the features may be renumbered, too. *)
Theorem C253_side_topic_query : forall K D T F W' W n' n inv fd ft fk ff perp' perp last iterations X' X A' A sigT' sigT vocab' vocab q' q,
  renumbers D fd -> renumbers T ft -> renumbers K fk -> renumbers F ff -> inverts K inv ->
  same_mat D T fd ft W' W -> same_vec D fd n' n ->
  (forall m' m, same_mat D K fd fk m' m -> perp' m' = perp m) ->
  symm K sigT -> (exists N, is_inverse K sigT N) ->
  (forall d, d < D -> exists N, is_inverse K (lhs K n (inv sigT) d) N) ->
  same_mat D F fd ff X' X -> same_mat K F fk ff A' A ->
  same_mat K K fk fk sigT' sigT -> same_mat K T fk ft vocab' vocab -> same_arrays K D fd fk q' q ->
  alike (same_arrays K D fd fk) (stm_query K D T W' n' inv perp' last iterations F X' A' sigT' vocab' q')
                               (stm_query K D T W n inv perp last iterations F X A sigT vocab q).
Proof.
  intros K D T F W' W n' n inv fd ft fk ff perp' perp last iterations X' X A' A sigT' sigT vocab' vocab q' q
    Hd Ht Hk Hf HI SW Sn HP SY EN EL SX SA SS Sv Sq. unfold stm_query. destruct (D =? 1); [reflexivity|]. cbn [alike].
  pose proof (inv_same K fk inv _ _ Hk HI SS SY EN) as SI.
  pose proof (inverse_symm K sigT _ SY (HI sigT SY EN)) as SYI.
  assert (Sc : same_mat D K fd fk (fun d k => 1 / (n' d * (INR K - 1) / INR K + inv sigT' k k))%R
                                 (fun d k => 1 / (n d * (INR K - 1) / INR K + inv sigT k k))%R).
  { intros d k Ld Lk. rewrite (Sn d Ld), (SI k k Lk Lk). reflexivity. }
  pose proof (query_loop_same K D T W' W n' n inv fd ft fk Hd Ht Hk SW Sn HI false perp' perp (inv sigT') (inv sigT) vocab' vocab
    (stm_prior K (inv sigT') (stm_mean F X' A')) (stm_prior K (inv sigT) (stm_mean F X A))
    (fun d k => 1 / (n' d * (INR K - 1) / INR K + inv sigT' k k))%R (fun d k => 1 / (n d * (INR K - 1) / INR K + inv sigT k k))%R HP SI) as G.
  destruct (G ltac:(intros d Ld; split; [intros i j Li Lj; unfold lhs, bohning, eye; rewrite (SYI i j Li Lj), (Nat.eqb_sym i j); reflexivity|apply EL, Ld])
     Sv ltac:(intros d k Ld Lk; unfold stm_prior;
       apply (vsum_same K fk _ (fun j => stm_mean F X A (fd d) j * inv sigT j (fk k))%R Hk); intros j Lj; rewrite (SI j k Lj Lk); f_equal;
       unfold stm_mean; apply (vsum_same F ff _ (fun f => X (fd d) f * A (fk j) f)%R Hf); intros f Lf; rewrite (SX d f Ld Lf), (SA j f Lj Lf); reflexivity)
     Sc (Nat.max iterations 100) 0 last
     {| s_arrays := q'; s_same := true; s_means := q_means q' |} {| s_arrays := q; s_same := true; s_means := q_means q |}
     Sq eq_refl (proj1 Sq)) as (G1 & G2 & _).
  split; [exact G1|]. split; [exact G2|exact Sc].
Qed.

(** ** Examples: both documents, both words and both topics swapped. *)
Definition some_docs : list words := [[(0, 1%R); (1, 2%R)]; [(1, 1%R)]].
Definition their_swap : list words := [[(0, 1%R)]; [(1, 1%R); (0, 2%R)]].
Definition some_lens : vec := fun d => if d =? 0 then 3%R else 1%R.
Example C252_case : exists w tp log w' tp' log',
  VbModel.train ln (fun _ _ => 0%R) 2 2 some_docs some_lens (fun _ => 1%R) (/ 2)%R (default_plan 5 0) two_topics (fun _ _ => 2%R) true = Ok (w, tp, log) /\
  VbModel.train ln (fun _ _ => 0%R) 2 2 their_swap (fun d => some_lens (swap2 d)) (fun _ => 1%R) (/ 2)%R (default_plan 5 0)
    (fun k t => two_topics (swap2 k) (swap2 t)) (fun _ _ => 2%R) true = Ok (w', tp', log') /\
  w' 0 1 = w 1 0 /\ w' 0 0 = w 1 1 /\ tp' 0 0 = tp 1 1 /\ tp' 1 0 = tp 0 1.
Proof.
  destruct (C252_numbering ln (fun _ _ => 0%R) (fun _ _ => 0%R) 2 2 some_docs their_swap some_lens (fun d => some_lens (swap2 d))
    (fun _ => 1%R) (fun _ => 1%R) (/ 2)%R swap2 swap2 swap2 (default_plan 5 0) two_topics (fun k t => two_topics (swap2 k) (swap2 t))
    (fun _ _ => 2%R) (fun _ _ => 2%R) true true) as (w & tp & log & w' & tp' & log' & E & E' & Sw & St);
    try exact swap2_renumbers; try reflexivity.
  - lia.
  - cbn; lia.
  - split; [|intros [|[|d]] Hd; cbn in *; try lia; split; lra].
    constructor; [|constructor; [|constructor]]; (split; [repeat constructor; cbn; intuition lia|]); repeat constructor; cbn; try lia; lra.
  - split; [|intros [|[|d]] Hd; cbn in *; try lia; split; lra].
    constructor; [|constructor; [|constructor]]; (split; [repeat constructor; cbn; intuition lia|]); repeat constructor; cbn; try lia; lra.
  - split; [reflexivity|]. split; [|intros d Hd; reflexivity].
    intros [|[|d]] [|[|t]] Hd Ht; cbn in *; try lia; unfold VbProofs.count; cbn; lra.
  - intros k Lk. reflexivity.
  - intros k t Lk Lt. reflexivity.
  - intros d k Ld Lk. reflexivity.
  - exists w, tp, log, w', tp', log'. split; [exact E|]. split; [exact E'|].
    split; [apply (Sw 0 1); lia|]. split; [apply (Sw 0 0); lia|]. split; [apply (St 0 0); cbn; lia|apply (St 1 0); cbn; lia].
Qed.

Lemma inv2_inverts : inverts 2 CtmProps.inv2.
Proof.
  intros M _ (N & HN). apply CtmProps.inv2_ok. intros E.
  pose proof (HN 0 0 ltac:(lia) ltac:(lia)) as A. pose proof (HN 0 1 ltac:(lia) ltac:(lia)) as B.
  pose proof (HN 1 0 ltac:(lia) ltac:(lia)) as C. pose proof (HN 1 1 ltac:(lia) ltac:(lia)) as G.
  unfold vsum, eye in A, B, C, G. cbn [seq map rsum Nat.eqb] in A, B, C, G.
  assert (X : ((M 0%nat 0%nat * M 1%nat 1%nat - M 0%nat 1%nat * M 1%nat 0%nat) * (N 0%nat 0%nat * N 1%nat 1%nat - N 0%nat 1%nat * N 1%nat 0%nat) = 1)%R).
  { replace ((M 0%nat 0%nat * M 1%nat 1%nat - M 0%nat 1%nat * M 1%nat 0%nat) * (N 0%nat 0%nat * N 1%nat 1%nat - N 0%nat 1%nat * N 1%nat 0%nat))%R
      with ((M 0%nat 0%nat * N 0%nat 0%nat + (M 0%nat 1%nat * N 1%nat 0%nat + 0)) * (M 1%nat 0%nat * N 0%nat 1%nat + (M 1%nat 1%nat * N 1%nat 1%nat + 0))
          - (M 0%nat 0%nat * N 0%nat 1%nat + (M 0%nat 1%nat * N 1%nat 1%nat + 0)) * (M 1%nat 0%nat * N 0%nat 0%nat + (M 1%nat 1%nat * N 1%nat 0%nat + 0)))%R by ring.
    rewrite A, B, C, G. ring. }
  rewrite E in X. lra.
Qed.
Definition some_words : mat := fun d t => match d, t with 0, 0 => 1%R | 0, 1 => 2%R | 1, 1 => 1%R | _, _ => 0%R end.
Definition some_ctm : ctm :=
  {| c_mean := fun _ => 0%R; c_sigT := eye; c_vocab := fun k t => if k =? t then (2/3)%R else (1/3)%R;
     c_means := fun d k => INR (d + 2 * k); c_exp := fun _ _ => 0%R; c_varcs := fun _ _ => 1%R |}.
Definition swapped_ctm : ctm :=
  {| c_mean := fun _ => 0%R; c_sigT := eye; c_vocab := fun k t => if k =? t then (2/3)%R else (1/3)%R;
     c_means := fun d k => INR (swap2 d + 2 * swap2 k); c_exp := fun _ _ => 0%R; c_varcs := fun _ _ => 1%R |}.
Example C253_case : exists s s',
  ctm_train 2 2 2 some_words some_lens (1/10) CtmProps.inv2 false (fun _ _ => false) 7 some_ctm = Ok s /\
  ctm_train 2 2 2 (fun d t => some_words (swap2 d) (swap2 t)) (fun d => some_lens (swap2 d)) (1/10) CtmProps.inv2 false (fun _ _ => false) 7 swapped_ctm = Ok s' /\
  c_means s' 0 0 = c_means s 1 1 /\ c_vocab s' 0 1 = c_vocab s 1 0.
Proof.
  pose proof (C253_training 2 2 2 (fun d t => some_words (swap2 d) (swap2 t)) some_words (fun d => some_lens (swap2 d)) some_lens (1/10) CtmProps.inv2
    swap2 swap2 swap2 false (fun _ _ => false) (fun _ _ => false) 7 swapped_ctm some_ctm swap2_renumbers swap2_renumbers swap2_renumbers inv2_inverts) as H.
  assert (X : forall t itr s, exists s', train_loop 2 2 2 some_words some_lens (1/10) CtmProps.inv2 false (fun _ _ => false) itr t s = Ok s').
  { induction t as [|t IH]; intros itr s; [exists s; reflexivity|]. cbn [train_loop train_iter]. unfold train_iter.
    cbn [negb andb Nat.ltb Nat.leb Nat.eqb]. cbv zeta. cbn [bind]. apply IH. }
  destruct (X 7 0 some_ctm) as (s & E). unfold ctm_train in *. rewrite E in *.
  destruct (train_loop 2 2 2 (fun d t => some_words (swap2 d) (swap2 t)) _ _ _ _ _ 0 7 swapped_ctm) as [s'|e];
    [|cbn [alike] in H; destruct H].
  - exists s, s'. split; [reflexivity|]. split; [reflexivity|]. cbn [alike] in H.
    destruct H as (_ & _ & Sv & Sm & _).
    + intros d t _ _. reflexivity.
    + intros d _. reflexivity.
    + intros d _. unfold some_lens. destruct (d =? 0); lra.
    + reflexivity.
    + split; [intros k _; reflexivity|]. split; [apply eye_same, swap2_renumbers|].
      split; [intros [|[|k]] [|[|t]] Lk Lt; try lia; reflexivity|].
      split; [intros d k _ _; reflexivity|]. split; intros d k _ _; reflexivity.
    + split; [apply Sm; lia|apply Sv; lia].
  - intros d t _ _. reflexivity.
  - intros d _. reflexivity.
  - intros d _. unfold some_lens. destruct (d =? 0); lra.
  - reflexivity.
  - split; [intros k _; reflexivity|]. split; [apply eye_same, swap2_renumbers|].
    split; [intros [|[|k]] [|[|t]] Lk Lt; try lia; reflexivity|].
    split; [intros d k _ _; reflexivity|]. split; intros d k _ _; reflexivity.
Qed.

Example C254_case : alike (same_topics 2 2 swap2 swap2)
  (em_query ln 3 [[1; 0]; [2; 1]]%R [[3; 1]; [1; 2]]%R [2; 1]%R [[1/2; 1/2]; [1/2; 1/2]]%R)
  (em_query ln 3 [[1; 2]; [0; 1]]%R [[2; 1]; [1; 3]]%R [1; 2]%R [[1/2; 1/2]; [1/2; 1/2]]%R).
Proof.
  pose proof (C254_query ln 2 2 2 (fun d t => some_words (swap2 d) (swap2 t)) some_words swap2 swap2 swap2 3
    (fun k t => match k, t with 0, 0 => 3 | 0, 1 => 1 | 1, 0 => 1 | _, _ => 2 end)%R
    (fun k t => match k, t with 0, 0 => 2 | 0, 1 => 1 | 1, 0 => 1 | _, _ => 3 end)%R
    (fun k => if k =? 0 then 2 else 1)%R (fun k => if k =? 0 then 1 else 2)%R (fun _ _ => 1/2)%R (fun _ _ => 1/2)%R
    ltac:(lia) swap2_renumbers swap2_renumbers swap2_renumbers) as H.
  apply H.
  - intros d t _ _. reflexivity.
  - intros [|[|k]] [|[|t]] Lk Lt; try lia; reflexivity.
  - intros [|[|k]] Lk; try lia; reflexivity.
  - intros d k _ _. reflexivity.
Qed.

Print Assumptions C252_numbering.
Print Assumptions C252_minibatches_refuted.
Print Assumptions C253_training.
Print Assumptions C253_query.
Print Assumptions C254_training.
Print Assumptions C254_query.
Print Assumptions C253_side_topic_query.
