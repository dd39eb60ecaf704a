(** * Proofs about the compiled variational LDA. *)
From Coq Require Import List Reals ZArith Arith Bool Lia Lra Permutation.
From Verif Require Import Base RealModel RealProofs GibbsProofs CvbModel MixProofs VbModel VbProofs VbFastModel.
Import ListNotations.
Open Scope nat_scope.

(** ** Specification *)
(** Probabilities proportional to the exponentials. *)
Definition share (K : nat) (f : vec) (k : nat) : R := (exp (f k) / vsum K (fun j => exp (f j)))%R.
(** The words of a document in the order in which they are stored. *)
Definition doc_words (W : nat -> nat -> nat) (lens : nat -> nat) (d : nat) : list nat := map (W d) (seq 0 (lens d)).
Definition over_words (W : nat -> nat -> nat) (lens : nat -> nat) (d : nat) (f : nat -> R) : R := rsum (map f (doc_words W lens d)).
(** Expected logarithm of the probability of a word in a topic. *)
Definition word_score (psi : R -> R) (T : nat) (V : mat) (k t : nat) : R := (psi (V k t) - psi (vsum T (V k)))%R.
(** What the code computes for every token with word [t]. *)
Definition first_share (psi : R -> R) (K T D : nat) (prior : vec) (V : mat) (t : nat) : vec :=
  share K (fun k => word_score psi T V k t + psi (prior k + INR D / INR K))%R.

(** ** Sums *)
Lemma share_pos K f k : 0 < K -> (0 < share K f k)%R.
Proof. intros HK. unfold share. apply Rdiv_lt_0_compat; [apply exp_pos|]. apply vsum_pos; [exact HK|intros; apply exp_pos]. Qed.
Lemma share_sum K f : 0 < K -> vsum K (share K f) = 1%R.
Proof.
  intros HK. assert (0 < vsum K (fun j => exp (f j)))%R by (apply vsum_pos; [exact HK|intros; apply exp_pos]).
  unfold share, Rdiv. rewrite vsum_scale_r. apply Rinv_r. lra.
Qed.
Lemma share_ext K f g k : k < K -> (forall j, j < K -> f j = g j) -> share K f k = share K g k.
Proof. intros Hk H. unfold share. rewrite (H k Hk), (vsum_ext K (fun j => exp (f j)) (fun j => exp (g j))); [reflexivity|]. intros; rewrite H by assumption; reflexivity. Qed.
Lemma share_shift K f g c k : k < K -> (forall j, j < K -> f j = (g j + c)%R) -> share K f k = share K g k.
Proof.
  intros Hk H. unfold share. rewrite (H k Hk), (vsum_ext K (fun j => exp (f j)) (fun j => exp (g j) * exp c)%R).
  - rewrite vsum_scale_r, exp_plus. assert (0 < vsum K (fun j => exp (g j)))%R by (apply vsum_pos; [lia|intros; apply exp_pos]).
    pose proof (exp_pos c). field. split; lra.
  - intros j Hj. rewrite H, exp_plus by assumption. reflexivity.
Qed.
(** Equal probabilities: the scores differ by a constant. *)
Lemma share_inj K f g : (0 < K)%nat -> (forall k, (k < K)%nat -> share K f k = share K g k) -> forall i j, (i < K)%nat -> (j < K)%nat -> (f i - g i)%R = (f j - g j)%R.
Proof.
  intros HK H. assert (A : (0 < vsum K (fun j => exp (f j)))%R) by (apply vsum_pos; [lia|intros; apply exp_pos]).
  assert (B : (0 < vsum K (fun j => exp (g j)))%R) by (apply vsum_pos; [lia|intros; apply exp_pos]).
  set (F := vsum K (fun j => exp (f j))) in *. set (G := vsum K (fun j => exp (g j))) in *.
  assert (E : forall i, i < K -> (f i - g i)%R = ln (F / G)%R).
  { intros i Hi. specialize (H i Hi). unfold share in H. fold F G in H.
    assert (exp (f i - g i) = F / G)%R as E.
    { unfold Rminus. rewrite exp_plus, exp_Ropp. pose proof (exp_pos (g i)). 
      assert (exp (f i) = exp (g i) / G * F)%R as -> by (rewrite <- H; field; lra). field. split; lra. }
    rewrite <- E, ln_exp. reflexivity. }
  intros i j Hi Hj. rewrite !E by assumption. reflexivity.
Qed.

Lemma fold_plus l acc : fold_left Rplus l acc = (acc + rsum l)%R.
Proof. revert acc. induction l as [|x l IH]; intros acc; cbn; [lra|]. rewrite IH. lra. Qed.
Lemma vsum_list n v : vsum n v = rsum (map v (seq 0 n)).
Proof. reflexivity. Qed.

Lemma iterS {A} (f : A -> A) m s : Nat.iter (S m) f s = f (Nat.iter m f s). Proof. reflexivity. Qed.

(** Loops that write the first [n] cells. *)
Lemma write_rows {A} (g : nat -> A) n (z : nat -> A) i :
  fold_left (fun z m => upd1 z m (g m)) (seq 0 n) z i = if i <? n then g i else z i.
Proof.
  induction n as [|n IH]; [reflexivity|]. rewrite seq_S, fold_left_app. cbn [fold_left Nat.add]. unfold upd1 at 1.
  destruct (Nat.eqb_spec i n) as [->|Hi].
  - destruct (Nat.ltb_spec n (S n)); [reflexivity|lia].
  - rewrite IH. destruct (Nat.ltb_spec i n), (Nat.ltb_spec i (S n)); try lia; reflexivity.
Qed.
Lemma add_row (f : vec) n (td : vec) i : fold_left (fun td k => upd1 td k (td k + f k)%R) (seq 0 n) td i
  = (if i <? n then td i + f i else td i)%R.
Proof.
  induction n as [|n IH]; [reflexivity|]. rewrite seq_S, fold_left_app. cbn [fold_left Nat.add]. unfold upd1 at 1.
  destruct (Nat.eqb_spec i n) as [->|Hi].
  - rewrite IH. destruct (Nat.ltb_spec n (S n)), (Nat.ltb_spec n n); try lia; reflexivity.
  - rewrite IH. destruct (Nat.ltb_spec i n), (Nat.ltb_spec i (S n)); try lia; reflexivity.
Qed.
Lemma add_rows_to_spec K z m td k : k < K -> add_rows_to K z m td k = (td k + vsum m (fun n => z n k))%R.
Proof.
  intros Hk. induction m as [|m IH]; [unfold add_rows_to, vsum; cbn; lra|].
  unfold add_rows_to, vsum in *. rewrite seq_S, fold_left_app, map_app, rsum_app. cbn [fold_left Nat.add map rsum].
  rewrite add_row. destruct (Nat.ltb_spec k K); [|lia]. rewrite IH. lra.
Qed.

Section Fast.
  Context (psi : R -> R) (low : R) (K T D : nat) (W : nat -> nat -> nat) (lens : nat -> nat) (prior : vec).
  Context (HK : 0 < K).
  (** The prior is a prior. *)
  Context (Hprior : forall k, k < K -> (/ 10 ^ 300 <= prior k + INR D / INR K)%R).

  Lemma digamma_big x : (/ 10 ^ 300 <= x)%R -> digamma psi x = psi x.
  Proof. intros H. unfold digamma. destruct (rltb x (/ 10 ^ 300)) eqn:E; [|reflexivity]. unfold rltb in E. destruct (Rlt_dec _ _); [lra|discriminate]. Qed.

  Lemma token_row_is diV diS td t k : k < K ->
    token_row psi low K diV diS td t k = share K (fun k => diV k t - diS k + digamma psi (td k))%R k.
  Proof.
    intros Hk. unfold token_row. set (s := token_scores psi K diV diS td t). set (m := scan_high low s).
    assert (Hs : s <> []) by (unfold s, token_scores; destruct K; [lia|discriminate]).
    assert (Hls : length s = K) by (unfold s, token_scores; rewrite map_length, seq_length; reflexivity).
    rewrite fold_plus, Rplus_0_l.
    rewrite (nth_indep _ 0%R (exp (0 - m))) by (rewrite map_length; lia).
    rewrite (map_nth (fun x => exp (x - m))), shifted_ratio by exact Hs. unfold share. f_equal.
    - f_equal. unfold s, token_scores. rewrite (nth_indep _ 0%R (diV 0%nat t - diS 0%nat + digamma psi (td 0%nat))%R) by (rewrite map_length, seq_length; lia).
      rewrite (map_nth (fun k => (diV k t - diS k + digamma psi (td k))%R)), seq_nth by lia. reflexivity.
    - f_equal. unfold s, token_scores, vsum. rewrite map_map. reflexivity.
  Qed.

  Section Doc.
    Context (diV : mat) (diS : vec) (d : nat).
    Let row (t : nat) : vec := token_row psi low K diV diS (reset_topics K D prior) t.

    Lemma inner_z z n : snd (inner psi low K D W lens prior diV diS d z) n = if n <? lens d then row (W d n) else z n.
    Proof. unfold inner. cbn [snd]. apply (write_rows (fun n => row (W d n))). Qed.
    Lemma inner_td z k : k < K -> fst (inner psi low K D W lens prior diV diS d z) k
      = (reset_topics K D prior k + over_words W lens d (fun t => row t k))%R.
    Proof.
      intros Hk. unfold inner. cbn [fst]. rewrite add_rows_to_spec by exact Hk. f_equal. unfold over_words, doc_words. rewrite map_map.
      apply rsum_ext. intros n Hn. apply in_seq in Hn. rewrite (write_rows (fun n => row (W d n))).
      destruct (Nat.ltb_spec n (lens d)); [reflexivity|lia].
    Qed.

    Lemma l1_zero a b : (forall k, k < K -> a k = b k) -> l1_dist K a b = 0%R.
    Proof.
      intros H. unfold l1_dist. rewrite (fold_left_rsum (fun k => Rabs (a k - b k))), Rplus_0_l.
      rewrite (rsum_ext _ (fun _ => 0%R)); [rewrite rsum_const; ring|].
      intros k Hk. apply in_seq in Hk. rewrite H by lia. rewrite Rminus_diag_eq, Rabs_R0; reflexivity.
    Qed.

    Lemma infer_topics_is z :
      exists td z', infer_topics psi low K D W lens prior diV diS d z = (3, td, z') /\
        (forall k, (k < K)%nat -> td k = reset_topics K D prior k + over_words W lens d (fun t => row t k))%R /\
        (forall n, z' n = if n <? lens d then row (W d n) else z n).
    Proof.
      unfold infer_topics, max_inner. change 100 with (S (S (S (S 96)))). cbn [infer_loop min_inner Nat.ltb Nat.leb orb].
      destruct (inner psi low K D W lens prior diV diS d z) as [td1 z1] eqn:E1.
      destruct (inner psi low K D W lens prior diV diS d z1) as [td2 z2] eqn:E2.
      destruct (inner psi low K D W lens prior diV diS d z2) as [td3 z3] eqn:E3.
      assert (T3 : forall k, k < K -> td3 k = (reset_topics K D prior k + over_words W lens d (fun t => row t k))%R).
      { intros k Hk. rewrite <- (inner_td z2 k Hk), E3. reflexivity. }
      assert (T2 : forall k, k < K -> td2 k = (reset_topics K D prior k + over_words W lens d (fun t => row t k))%R).
      { intros k Hk. rewrite <- (inner_td z1 k Hk), E2. reflexivity. }
      rewrite (l1_zero td2 td3) by (intros k Hk; rewrite T2, T3 by exact Hk; reflexivity).
      assert (rltb (/ 100 / INR K) 0 = false) as ->.
      { unfold rltb. destruct (Rlt_dec _ _) as [H|]; [|reflexivity]. exfalso. 
        assert (0 < INR K)%R by (apply (lt_INR 0); exact HK). assert (0 < / 100 / INR K)%R by (apply Rdiv_lt_0_compat; lra). lra. }
      change (3 <? 3) with false. cbn [orb]. exists td3, z3. split; [reflexivity|]. split; [exact T3|].
      intros n. pose proof (inner_z z2 n) as A. pose proof (inner_z z1 n) as B. pose proof (inner_z z n) as C.
      rewrite E3 in A. rewrite E2 in B. rewrite E1 in C. cbn [snd] in *. change (z3 n = if n <? lens d then row (W d n) else z n). rewrite A. destruct (n <? lens d); [reflexivity|]. rewrite B. exact C.
    Qed.
  End Doc.

  (** The same with the digammas of a vocabulary. *)
  Lemma row_is V t k : k < K -> token_row psi low K (di_vocab psi V) (di_sums psi T V) (reset_topics K D prior) t k = first_share psi K T D prior V t k.
  Proof.
    intros Hk. rewrite token_row_is by exact Hk. unfold first_share. apply share_ext; [exact Hk|]. intros j Hj.
    unfold reset_topics, post, word_score, di_vocab, di_sums. rewrite digamma_big by (apply Hprior, Hj). reflexivity.
  Qed.
  Lemma infer_is V d z : exists td z', infer_topics psi low K D W lens prior (di_vocab psi V) (di_sums psi T V) d z = (3, td, z') /\
    (forall k, (k < K)%nat -> td k = prior k + INR D / INR K + over_words W lens d (fun t => first_share psi K T D prior V t k))%R /\
    (forall n k, n < lens d -> k < K -> z' n k = first_share psi K T D prior V (W d n) k) /\
    (forall n, lens d <= n -> z' n = z n).
  Proof.
    destruct (infer_topics_is (di_vocab psi V) (di_sums psi T V) d z) as (td & z' & E & H1 & H2).
    exists td, z'. split; [exact E|]. split; [|split].
    - intros k Hk. rewrite H1 by exact Hk. unfold reset_topics, post. f_equal. apply rsum_ext. intros t _. apply row_is, Hk.
    - intros n k Hn Hk. rewrite H2. destruct (Nat.ltb_spec n (lens d)); [|lia]. apply row_is, Hk.
    - intros n Hn. rewrite H2. destruct (Nat.ltb_spec n (lens d)); [lia|reflexivity].
  Qed.

  (** ** Vocabulary *)
  Lemma upd2_at (f : mat) i j v a b : upd2 f i j v a b = if (a =? i) && (b =? j) then v else f a b.
  Proof. unfold upd2, upd1. destruct (Nat.eqb_spec a i) as [->|]; cbn; [|reflexivity]. destruct (b =? j); reflexivity. Qed.

  Definition hits (z : mat) (d k t : nat) : R := rsum (map (fun n => if t =? W d n then z n k else 0)%R (seq 0 (lens d))).

  Lemma add_topic z d k V a t :
    fold_left (fun V n => upd2 V k (W d n) (V k (W d n) + z n k)%R) (seq 0 (lens d)) V a t
    = if a =? k then (V a t + hits z d k t)%R else V a t.
  Proof.
    unfold hits. induction (lens d) as [|m IH]; [cbn; destruct (a =? k); lra|].
    rewrite seq_S, fold_left_app, map_app, rsum_app. cbn [fold_left Nat.add map rsum]. rewrite upd2_at.
    set (V' := fold_left _ (seq 0 m) V) in *. destruct (Nat.eqb_spec a k) as [->|Hak]; cbn [andb].
    - destruct (Nat.eqb_spec t (W d m)) as [->|]; rewrite IH; lra.
    - exact IH.
  Qed.
  Lemma add_doc_is z d V k t : k < K -> add_doc K W lens d z V k t = (V k t + hits z d k t)%R.
  Proof.
    intros Hk. unfold add_doc.
    assert (G : forall m, fold_left (fun V k => fold_left (fun V n => upd2 V k (W d n) (V k (W d n) + z n k)%R) (seq 0 (lens d)) V) (seq 0 m) V k t
      = if k <? m then (V k t + hits z d k t)%R else V k t).
    { induction m as [|m IH]; [reflexivity|]. rewrite seq_S, fold_left_app. cbn [fold_left Nat.add]. rewrite add_topic.
      destruct (Nat.eqb_spec k m) as [E|]; [rewrite <- E in *|]; rewrite IH; [destruct (Nat.ltb_spec k k), (Nat.ltb_spec k (S k))|destruct (Nat.ltb_spec k m), (Nat.ltb_spec k (S m))]; try lia; reflexivity. }
    rewrite G. destruct (Nat.ltb_spec k K); [reflexivity|lia].
  Qed.

  (** Occurrences of a word in a document. *)
  Definition occurs (d t : nat) : R := over_words W lens d (fun u => if t =? u then 1 else 0)%R.

  Lemma hits_is z d k t (f : nat -> vec) : (forall n, (n < lens d)%nat -> z n k = f (W d n) k) -> hits z d k t = (occurs d t * f t k)%R.
  Proof.
    intros H. unfold hits, occurs, over_words, doc_words. rewrite map_map.
    assert (G : forall m, m <= lens d -> rsum (map (fun n => if t =? W d n then z n k else 0)%R (seq 0 m))
      = (rsum (map (fun n => if t =? W d n then 1 else 0)%R (seq 0 m)) * f t k)%R).
    { induction m as [|m IH]; intros Hm; [cbn; ring|]. rewrite seq_S, !map_app, !rsum_app, IH by lia. cbn [map rsum Nat.add].
      destruct (Nat.eqb_spec t (W d m)) as [->|]; [rewrite (H m) by lia; ring|ring]. }
    apply G. lia.
  Qed.

  (** One iteration. *)
  Lemma iterate_docs V0 docs s : exists s', fold_left (iter_doc psi low K D W lens prior (di_vocab psi V0) (di_sums psi T V0)) docs s = s' /\
    (forall d k, (k < K)%nat -> v_topics s' d k = if existsb (Nat.eqb d) docs
        then prior k + INR D / INR K + over_words W lens d (fun t => first_share psi K T D prior V0 t k) else v_topics s d k)%R /\
    (forall k t, (k < K)%nat -> v_vocab s' k t = v_vocab s k t + rsum (map (fun d => occurs d t * first_share psi K T D prior V0 t k) docs))%R.
  Proof.
    revert s. induction docs as [|d docs IH]; intros s; cbn [fold_left existsb map rsum].
    - exists s. split; [reflexivity|]. split; [reflexivity|]. intros; ring.
    - destruct (infer_is V0 d (v_z s)) as (td & z' & E & H1 & H2 & H3).
      destruct (IH (iter_doc psi low K D W lens prior (di_vocab psi V0) (di_sums psi T V0) s d)) as (s' & Es & A & B).
      exists s'. split; [exact Es|]. unfold iter_doc in A, B. rewrite E in A, B. cbn [v_topics v_vocab] in A, B. split.
      + intros i k Hk. rewrite A by exact Hk. destruct (existsb (Nat.eqb i) docs); [rewrite orb_true_r; reflexivity|]. rewrite orb_false_r.
        unfold set_row. destruct (Nat.eqb_spec i d) as [->|]; [apply H1, Hk|reflexivity].
      + intros k t Hk. rewrite B, add_doc_is by exact Hk. rewrite (hits_is z' d k t (fun t => first_share psi K T D prior V0 t)).
        * ring.
        * intros n Hn. apply H2; assumption.
  Qed.
  Lemma iterate1_is vocabPrior s : exists s', iterate1 psi low K T D W lens prior vocabPrior s = s' /\
    (forall d k, (d < D)%nat -> (k < K)%nat -> v_topics s' d k = prior k + INR D / INR K + over_words W lens d (fun t => first_share psi K T D prior (v_vocab s) t k))%R /\
    (forall k t, (k < K)%nat -> v_vocab s' k t = vocabPrior + vsum D (fun d => occurs d t) * first_share psi K T D prior (v_vocab s) t k)%R.
  Proof.
    destruct (iterate_docs (v_vocab s) (seq 0 D) (mkV (v_topics s) (fun _ _ => vocabPrior) (v_z s))) as (s' & E & A & B).
    exists s'. split; [exact E|]. split.
    - intros d k Hd Hk. rewrite A by exact Hk. rewrite (proj2 (existsb_exists _ _)); [reflexivity|]. exists d. split; [apply in_seq; lia|apply Nat.eqb_refl].
    - intros k t Hk. rewrite B by exact Hk. cbn [v_vocab]. rewrite <- vsum_scale_r. reflexivity.
  Qed.

  (** Queries. *)
  Lemma query_docs V0 docs s : v_vocab s = V0 -> exists s', fold_left (query_doc psi low K D W lens prior (di_vocab psi V0) (di_sums psi T V0)) docs s = s' /\
    v_vocab s' = V0 /\
    (forall d k, (k < K)%nat -> v_topics s' d k = if existsb (Nat.eqb d) docs
        then prior k + INR D / INR K + over_words W lens d (fun t => first_share psi K T D prior V0 t k) else v_topics s d k)%R.
  Proof.
    revert s. induction docs as [|d docs IH]; intros s HV; cbn [fold_left existsb map rsum].
    - exists s. split; [reflexivity|]. split; [exact HV|reflexivity].
    - destruct (infer_is V0 d (v_z s)) as (td & z' & E & H1 & _).
      destruct (IH (query_doc psi low K D W lens prior (di_vocab psi V0) (di_sums psi T V0) s d)) as (s' & Es & B & A).
      { unfold query_doc. rewrite E. exact HV. }
      exists s'. split; [exact Es|]. split; [exact B|]. unfold query_doc in A. rewrite E in A. cbn [v_topics] in A.
      intros i k Hk. rewrite A by exact Hk. destruct (existsb (Nat.eqb i) docs); [rewrite orb_true_r; reflexivity|]. rewrite orb_false_r.
      unfold set_row. destruct (Nat.eqb_spec i d) as [->|]; [apply H1, Hk|reflexivity].
  Qed.
  Lemma query1_is s : v_vocab (query1 psi low K T D W lens prior s) = v_vocab s /\
    (forall d k, (d < D)%nat -> (k < K)%nat -> v_topics (query1 psi low K T D W lens prior s) d k
       = prior k + INR D / INR K + over_words W lens d (fun t => first_share psi K T D prior (v_vocab s) t k))%R.
  Proof.
    destruct (query_docs (v_vocab s) (seq 0 D) s eq_refl) as (s' & E & A & B). unfold query1. rewrite E. split; [exact A|].
    intros d k Hd Hk. rewrite B by exact Hk. rewrite (proj2 (existsb_exists _ _)); [reflexivity|]. exists d. split; [apply in_seq; lia|apply Nat.eqb_refl].
  Qed.
  Lemma query_is double n s s' : 0 < D -> (1 <= n)%Z -> query psi low K T D W lens prior double n s = Ok s' ->
    v_vocab s' = v_vocab s /\
    (forall d k, (d < D)%nat -> (k < K)%nat -> v_topics s' d k
       = prior k + INR D / INR K + over_words W lens d (fun t => first_share psi K T D prior (v_vocab s) t k))%R.
  Proof.
    intros HD Hn H. unfold query in H. destruct (Nat.eqb_spec D 0); [lia|]. destruct (Z.leb_spec n 0); [lia|].
    destruct double; [|discriminate]. apply ok_inj in H. subst s'.
    assert (G : forall m, v_vocab (Nat.iter m (query1 psi low K T D W lens prior) s) = v_vocab s).
    { induction m as [|m IH]; [reflexivity|]. rewrite iterS, (proj1 (query1_is _)). exact IH. }
    split; [apply G|]. destruct (Z.to_nat n) as [|m] eqn:Em; [lia|]. intros d k Hd Hk. rewrite iterS.
    rewrite (proj2 (query1_is _)) by assumption. rewrite G. reflexivity.
  Qed.
End Fast.
