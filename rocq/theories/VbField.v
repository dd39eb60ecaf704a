(** * C125: batch training performs the mean-field updates of LDA. *)
From Coq Require Import List Reals ZArith Arith Bool Lra Lia.
From Verif Require Import Base RealModel RealProofs MixModel MixProofs MixProps VbModel VbProofs VbProps.
Import ListNotations.
Open Scope nat_scope.

(** ** Words weighted by a function of the word *)
Lemma weighted_words T (f : nat -> R) doc : Forall (fun e => fst e < T) doc ->
  rsum (map (fun e => f (fst e) * snd e)%R doc) = vsum T (fun t => count doc t * f t)%R.
Proof.
  induction 1 as [|[u x] doc Hu H IH]; cbn [map rsum].
  - unfold count. cbn [map rsum]. rewrite (vsum_ext _ _ (fun _ => 0%R)) by (intros; ring). rewrite vsum_const. ring.
  - rewrite IH. cbn [fst snd] in *.
    rewrite (vsum_ext T (fun t => count ((u, x) :: doc) t * f t)%R (fun t => (if u =? t then x else 0) * f t + count doc t * f t)%R).
    2:{ intros t _. unfold count. cbn [map rsum fst snd]. ring. }
    rewrite vsum_plus. f_equal. unfold vsum.
    clear IH. assert (E : forall l, NoDup l -> rsum (map (fun t => (if u =? t then x else 0) * f t)%R l) = if in_dec Nat.eq_dec u l then (f u * x)%R else 0%R).
    { induction l as [|t l IHl]; intros N; [reflexivity|]. inversion N; subst. cbn [map rsum]. rewrite (IHl H3).
      destruct (Nat.eqb_spec u t) as [->|NE].
      - destruct (in_dec Nat.eq_dec t l); [contradiction|]. destruct (in_dec Nat.eq_dec t (t :: l)) as [_|n0]; [ring|exfalso; apply n0; left; reflexivity].
      - destruct (in_dec Nat.eq_dec u l) as [I|I]; destruct (in_dec Nat.eq_dec u (t :: l)) as [J|J]; try ring.
        + exfalso. apply J. right. exact I.
        + exfalso. destruct J as [J|J]; [congruence|contradiction]. }
    rewrite E by apply seq_NoDup. destruct (in_dec Nat.eq_dec u (seq 0 T)) as [_|N]; [reflexivity|].
    exfalso. apply N, in_seq. lia.
Qed.

Section Exact.
  Context (K T : nat) (zr : nat -> list R) (r : nat -> nat -> R).
  Context (Hr : forall t k, k < K -> nth k (zr t) 0%R = r k t).

  Lemma combine_map_r {A B} (f : A -> B) l : combine l (map f l) = map (fun a => (a, f a)) l.
  Proof. induction l as [|a l IH]; [reflexivity|]. cbn. f_equal. exact IH. Qed.

  Lemma add_words_exact (doc : words) (grad : mat) k t : k < K -> NoDup (map fst doc) ->
    add_words doc (map (fun e => zr (fst e)) doc) grad k t = (grad k t + count doc t * r k t)%R.
  Proof.
    intros Hk N. unfold add_words, stored. rewrite combine_map_r.
    assert (X : forall acc, fold_left (fun (acc : option (R * list R)) '((u, x), zc) => if u =? t then Some (x, zc) else acc)
                  (map (fun a : nat * R => (a, zr (fst a))) doc) acc =
                if in_dec Nat.eq_dec t (map fst doc) then Some (count doc t, zr t) else acc).
    { clear grad. induction doc as [|[u x] doc IH]; intros acc; [reflexivity|]. cbn [map fold_left fst]. inversion N; subst.
      rewrite (IH H2). destruct (Nat.eqb_spec u t) as [->|NE].
      - destruct (in_dec Nat.eq_dec t (map fst doc)); [contradiction|].
        destruct (in_dec Nat.eq_dec t (t :: map fst doc)) as [_|n0]; [|exfalso; apply n0; left; reflexivity].
        unfold count. cbn [map rsum fst snd]. rewrite Nat.eqb_refl. fold (count doc t). rewrite count_absent by assumption. do 2 f_equal. ring.
      - destruct (in_dec Nat.eq_dec t (map fst doc)) as [I|I]; destruct (in_dec Nat.eq_dec t (u :: map fst doc)) as [J|J].
        + unfold count. cbn [map rsum fst snd]. rewrite (proj2 (Nat.eqb_neq u t) NE). do 2 f_equal. ring.
        + exfalso. apply J. right. exact I.
        + exfalso. destruct J as [J|J]; [congruence|contradiction].
        + reflexivity. }
    rewrite X. destruct (in_dec Nat.eq_dec t (map fst doc)) as [I|I].
    - rewrite (Hr t k Hk). reflexivity.
    - rewrite count_absent by exact I. ring.
  Qed.

  Lemma new_mean_exact (doc : words) len k : k < K -> Forall (fun e => fst e < T) doc ->
    new_mean doc (map (fun e => zr (fst e)) doc) len k = (vsum T (fun t => count doc t * r k t) / len)%R.
  Proof.
    intros Hk HT. unfold new_mean. rewrite combine_map_r, map_map. f_equal.
    rewrite <- (weighted_words T (r k) doc HT). f_equal. apply map_ext. intros [u x]. cbn [fst snd]. rewrite (Hr u k Hk). reflexivity.
  Qed.
End Exact.

Lemma softmax_nth (f : nat -> R) K k : k < K ->
  nth k (softmax_of (map f (seq 0 K))) 0%R = (exp (f k) / vsum K (fun j => exp (f j)))%R.
Proof.
  intros Hk. unfold softmax_of.
  set (S0 := rsum (map exp (map f (seq 0 K)))).
  rewrite map_map.
  rewrite (nth_indep _ 0%R ((fun j => exp (f j) / S0)%R 0%nat)) by (rewrite map_length, seq_length; exact Hk).
  rewrite (map_nth (fun j => exp (f j) / S0)%R), seq_nth by exact Hk. cbn [Nat.add]. f_equal. unfold S0, vsum. rewrite map_map. reflexivity.
Qed.

Lemma iter_succ_r {A} (f : A -> A) n x : Nat.iter (S n) f x = Nat.iter n f (f x).
Proof. induction n as [|n IH]; [reflexivity|]. change (f (Nat.iter (S n) f x) = f (Nat.iter n f (f x))). rewrite IH. reflexivity. Qed.

Section Field.
  Context (psi : R -> R) (bound : mat -> mat -> R) (K T : nat).
  Context (docs : list words) (docLens prior : vec) (vp : R).
  Let D := length docs.
  Notation train := (train psi bound K T docs docLens prior vp).

  (** ** Specification: the probability of topic [k] for an occurrence of word [t] in
         document [d] is proportional to the exponential of the expected logarithms
         of the word's and of the topic's probability (up to a constant). *)
  Definition responsibility (word : mat) (d : nat) (mean : vec) (k t : nat) : R :=
    let e := fun j => exp (psi (word j t) - psi (vsum T (word j)) + psi (prior j + docLens d * mean j))%R in
    (e k / vsum K e)%R.
  (** All documents, with the old word parameters. *)
  Definition field_step (s : mat * mat) : mat * mat :=
    let (word, means) := s in
    ((fun k t => vp + vsum D (fun d => count (nth d docs []) t * responsibility word d (means d) k t))%R,
     (fun d k => vsum T (fun t => count (nth d docs []) t * responsibility word d (means d) k t) / docLens d)%R).
  Definition agree (a b : mat * mat) : Prop :=
    (forall k t, k < K -> t < T -> fst a k t = fst b k t) /\ (forall d k, d < D -> k < K -> snd a d k = snd b d k).

  Lemma responsibility_ext w w' d m m' k t : k < K -> t < T ->
    (forall k t, k < K -> t < T -> w k t = w' k t) -> (forall k, k < K -> m k = m' k) ->
    responsibility w d m k t = responsibility w' d m' k t.
  Proof.
    intros Hk Ht Hw Hm. unfold responsibility. cbv zeta.
    assert (E : forall j, j < K -> exp (psi (w j t) - psi (vsum T (w j)) + psi (prior j + docLens d * m j))%R =
                               exp (psi (w' j t) - psi (vsum T (w' j)) + psi (prior j + docLens d * m' j))%R).
    { intros j Hj. rewrite (Hw j t Hj Ht), (Hm j Hj). do 4 f_equal. apply vsum_ext. intros i Hi. apply Hw; assumption. }
    rewrite (E k Hk). f_equal. apply vsum_ext. exact E.
  Qed.

  Lemma step_agree a b : agree a b -> agree (field_step a) (field_step b).
  Proof.
    destruct a as [w m], b as [w' m']. intros [H1 H2]. cbn [fst snd] in *. split; cbn [field_step fst snd].
    - intros k t Hk Ht. f_equal. apply vsum_ext. intros d Hd. f_equal. apply responsibility_ext; auto.
    - intros d k Hd Hk. f_equal. apply vsum_ext. intros t Ht. f_equal. apply responsibility_ext; auto.
  Qed.
  Lemma agree_refl a : agree a a.
  Proof. split; reflexivity. Qed.
  Lemma agree_trans a b c : agree a b -> agree b c -> agree a c.
  Proof. intros [A1 A2] [B1 B2]. split; intros; [rewrite A1, B1|rewrite A2, B2]; auto. Qed.

  Lemma infer_exact doc d mean word : 0 < K ->
    infer psi K doc (docLens d) mean prior (fun k t => psi (word k t)) (fun k => psi (vsum T (word k))) =
    Ok (map (fun e => softmax_of (scores psi K (docLens d) mean prior (fun k t => psi (word k t)) (fun k => psi (vsum T (word k))) (fst e))) doc).
  Proof.
    intros HK. unfold infer. induction doc as [|e doc IH]; [reflexivity|]. cbn [mapM map].
    rewrite softmax_row_spec by (unfold scores; destruct K; [lia|discriminate]). cbn [bind]. rewrite IH. reflexivity.
  Qed.

  Lemma visits_exact word q : 0 < K -> corpus T docs docLens ->
    forall m j d means grad log, at_visit docs (q * D + j) d log -> j + m <= D ->
    exists d' means' grad' log',
      visits psi K T docs docLens prior m word (d, means, grad, log) = Ok (d', means', grad', log') /\
      at_visit docs (q * D + (j + m)) d' log' /\
      (forall k t, k < K -> grad' k t = (grad k t + rsum (map (fun i => count (nth i docs []) t * responsibility word i (means i) k t) (seq j m)))%R) /\
      (forall i k, k < K -> means' i k = if (j <=? i) && (i <? j + m)
         then (vsum T (fun t => count (nth i docs []) t * responsibility word i (means i) k t) / docLens i)%R else means i k).
  Proof.
    intros HK HC. induction m as [|m IH]; intros j d means grad log A Hj.
    - exists d, means, grad, log. split; [reflexivity|]. rewrite Nat.add_0_r. split; [exact A|]. split; [intros; cbn; ring|].
      intros i k _. assert ((j <=? i) && (i <? j) = false) as -> by lia. reflexivity.
    - assert (HD : 0 < length docs) by (fold D; lia).
      destruct (next_visit K docs HK HD _ d log A) as [E A'].
      assert (Em : (q * D + j) mod length docs = j).
      { unfold D in *. rewrite Nat.add_comm, Nat.mod_add by lia. apply Nat.mod_small. lia. }
      rewrite Em in E, A'.
      assert (Hi : j < length docs) by (fold D; lia).
      destruct (nth_error docs j) as [doc|] eqn:ED; [|apply nth_error_None in ED; lia].
      pose proof (nth_error_nth docs j [] ED) as ED'.
      destruct HC as [HF HL]. rewrite Forall_forall in HF. destruct (HF doc (nth_error_In _ _ ED)) as [ND FP].
      assert (FT : Forall (fun e => fst e < T) doc) by (eapply Forall_impl; [|exact FP]; intros e He; apply He).
      cbn [visits]. unfold visit. rewrite E, Nat2Z.id. unfold get_. rewrite ED. cbn [bind].
      rewrite (infer_exact doc j (means j) word HK). cbn [bind].
      set (zr := fun t => softmax_of (scores psi K (docLens j) (means j) prior (fun k t => psi (word k t)) (fun k => psi (vsum T (word k))) t)).
      assert (Hz : forall t k, k < K -> nth k (zr t) 0%R = responsibility word j (means j) k t).
      { intros t k Hk. unfold zr, scores. rewrite (softmax_nth (fun k => psi (word k t) - psi (vsum T (word k)) + psi (prior k + docLens j * means j k))%R) by exact Hk. reflexivity. }
      change (map (fun e => softmax_of (scores psi K (docLens j) (means j) prior (fun k t => psi (word k t)) (fun k => psi (vsum T (word k))) (fst e))) doc)
        with (map (fun e => zr (fst e)) doc).
      set (means1 := set_row means j (new_mean doc (map (fun e => zr (fst e)) doc) (docLens j))).
      set (grad1 := add_words doc (map (fun e => zr (fst e)) doc) grad).
      destruct (IH (S j) (Z.of_nat j) means1 grad1 (j :: log)) as (d' & means' & grad' & log' & EV & A2 & G & M).
      { replace (q * D + S j) with (S (q * D + j)) by lia. exact A'. }
      { lia. }
      assert (Hm1 : forall i, i <> j -> means1 i = means i).
      { intros i Hne. unfold means1, set_row. rewrite (proj2 (Nat.eqb_neq i j) Hne). reflexivity. }
      exists d', means', grad', log'. split; [exact EV|]. split; [replace (j + S m) with (S j + m) by lia; exact A2|]. split.
      + intros k t Hk. rewrite (G k t Hk). unfold grad1. rewrite (add_words_exact K zr (responsibility word j (means j)) Hz doc grad k t Hk ND).
        cbn [seq map rsum]. rewrite ED'. rewrite Rplus_assoc. do 2 f_equal.
        rewrite (map_ext_in _ (fun i => (count (nth i docs []) t * responsibility word i (means i) k t)%R)); [reflexivity|].
        intros i Hin. apply in_seq in Hin. rewrite Hm1 by lia. reflexivity.
      + intros i k Hk. rewrite (M i k Hk).
        destruct (Nat.eq_dec i j) as [->|NE].
        * assert ((S j <=? j) && (j <? S j + m) = false) as -> by lia.
          assert ((j <=? j) && (j <? j + S m) = true) as -> by lia.
          unfold means1, set_row. rewrite Nat.eqb_refl, (new_mean_exact K T zr (responsibility word j (means j)) Hz doc _ k Hk FT), ED'. reflexivity.
        * rewrite (Hm1 i NE). replace ((j <=? i) && (i <? j + S m)) with ((S j <=? i) && (i <? S j + m)) by lia. reflexivity.
  Qed.

  Lemma batches_exact p : 0 < K -> corpus T docs docLens -> p_rate p = RBatch ->
    forall m b s, at_visit docs (b * D) (v_d s) (v_log s) ->
    exists s', batches psi bound K T docs docLens prior vp p D m b s = Ok s' /\
      agree (v_word s', v_means s') (Nat.iter m field_step (v_word s, v_means s)).
  Proof.
    intros HK HC HR. induction m as [|m IH]; intros b s A.
    - exists s. split; [reflexivity|]. apply agree_refl.
    - cbn [batches]. unfold one_batch. cbv zeta.
      destruct (visits_exact (v_word s) b HK HC D 0 (v_d s) (v_means s) (fun _ _ => vp) (v_log s)) as (d' & means' & grad' & log' & EV & A2 & G & M).
      { rewrite Nat.add_0_r. exact A. }
      { lia. }
      rewrite EV. cbn [bind]. unfold adjust. rewrite HR. cbn [bind].
      destruct (IH (S b) (mkV d' means' grad' (v_step s) (v_gradStep s) (v_ex s) (v_gtg s) log')) as (s' & E' & Hs').
      { cbn [v_d v_log]. replace (S b * D) with (b * D + (0 + D)) by lia. exact A2. }
      exists s'. split; [exact E'|]. cbn [v_word v_means] in Hs'.
      eapply agree_trans; [exact Hs'|]. rewrite iter_succ_r.
      assert (H1 : agree (grad', means') (field_step (v_word s, v_means s))).
      { split; cbn [field_step fst snd].
        - intros k t Hk _. rewrite (G k t Hk). reflexivity.
        - intros d k Hd Hk. rewrite (M d k Hk). assert ((0 <=? d) && (d <? 0 + D) = true) as -> by lia. reflexivity. }
      clear -H1. revert H1. generalize (grad', means'). generalize (field_step (v_word s, v_means s)).
      induction m as [|m IH]; intros a b H; [exact H|]. cbn [Nat.iter nat_rect] in *. apply step_agree, IH, H.
  Qed.

  Theorem C125_batch_training_is_mean_field : forall p word topics flag, 0 < K -> 0 < D -> corpus T docs docLens ->
    p_rate p = RBatch ->
    exists word' topics' log, train p word topics flag = Ok (word', topics', log) /\
      let fixed := Nat.iter (Z.to_nat (p_iterations p)) field_step (word, fun d k => (topics d k - prior k) / docLens d)%R in
      (forall k t, k < K -> t < T -> word' k t = fst fixed k t) /\
      (forall d k, d < D -> k < K -> topics' d k = (snd fixed d k * docLens d + prior k)%R).
  Proof.
    intros p word topics flag HK HD HC HR. unfold VbModel.train, train_state.
    rewrite (no_empty_docs psi T docs docLens vp HC). unfold batch_sizes. rewrite HR. cbn [bind].
    rewrite (proj2 (Z.eqb_neq _ 0)) by (fold D; lia). rewrite Nat2Z.id, Z.mul_1_l.
    set (s0 := mkV _ _ _ _ _ _ _ _).
    destruct (batches_exact p HK HC HR (Z.to_nat (p_iterations p)) 0 s0) as (s' & E & A1 & A2).
    { split; reflexivity. }
    change (length docs) with D. rewrite E. cbn [bind]. do 3 eexists. split; [reflexivity|]. cbv zeta.
    cbn [fst snd] in A1, A2. split; [exact A1|]. intros d k Hd Hk. unfold means_to_params. rewrite (A2 d k Hd Hk). reflexivity.
  Qed.
End Field.

(** With the logarithm for the digamma function: a word's topic has odds
    (1/2 * 2) : (1/4 * 3) for the first word and (1/2 * 2) : (3/4 * 3) for the second. *)
Definition one_doc : list words := [[(0, 1%R); (1, 2%R)]].
Definition two_topics : mat := fun k t => if (k =? 1) && (t =? 1) then 3%R else 1%R.
Lemma one_corpus : corpus 2 one_doc (fun _ => 3%R).
Proof.
  split.
  - constructor; [|constructor]. split; [repeat constructor; cbn; intuition lia|]. repeat constructor; cbn; try lia; lra.
  - intros d Hd. unfold one_doc in *. cbn in Hd. assert (d = 0) as -> by lia. cbn. split; [cbn; ring|lra].
Qed.
Example C125_case : exists word' topics' log,
  train ln (fun _ _ => 0%R) 2 2 one_doc (fun _ => 3%R) (fun _ => 1%R) (/ 2)%R
    (default_plan 1 0) two_topics (fun _ k => if k =? 0 then 2%R else 3%R) true = Ok (word', topics', log) /\
  word' 0%nat 0%nat = (/ 2 + 4 / 7)%R /\ word' 1%nat 1%nat = (/ 2 + 2 * (9 / 13))%R /\ topics' 0%nat 0%nat = (1 + 4 / 7 + 2 * (4 / 13))%R.
Proof.
  destruct (C125_batch_training_is_mean_field ln (fun _ _ => 0%R) 2 2 one_doc (fun _ => 3%R) (fun _ => 1%R) (/ 2)%R
    (default_plan 1 0) two_topics (fun _ k => if k =? 0 then 2%R else 3%R) true) as (w & tp & log & E & HW & HT);
    [lia|cbn; lia|exact one_corpus|reflexivity|].
  exists w, tp, log. split; [exact E|].
  assert (X : forall a b c, (0 < a)%R -> (0 < b)%R -> (0 < c)%R -> exp (ln a - ln b + ln c) = (a / b * c)%R).
  { intros a b c Ha Hb Hc. unfold Rminus. rewrite !exp_plus, exp_Ropp, !exp_ln by assumption. reflexivity. }
  assert (R : forall k t, k < 2 -> t < 2 -> responsibility ln 2 2 (fun _ => 3%R) (fun _ => 1%R) two_topics 0
     (fun k => (((if k =? 0 then 2 else 3) - 1) / 3)%R) k t =
     match k, t with 0, 0 => (4/7)%R | 0, _ => (4/13)%R | _, 0 => (3/7)%R | _, _ => (9/13)%R end).
  { intros k t Hk Ht. unfold responsibility, vsum, two_topics. cbn [seq map rsum].
    destruct k as [|[|k]]; [| |lia]; (destruct t as [|[|t]]; [| |lia]); cbn [Nat.eqb andb]; rewrite !X by lra; field. }
  rewrite (HW 0 0), (HW 1 1), (HT 0 0) by (cbn; lia). change (Z.to_nat (p_iterations (default_plan 1 0))) with 1.
  cbn [Nat.iter nat_rect field_step fst snd]. unfold vsum. cbn [length one_doc seq map rsum nth]. rewrite !R by lia.
  unfold count. cbn [map rsum fst snd Nat.eqb]. repeat split; field.
Qed.

Print Assumptions C125_batch_training_is_mean_field.
