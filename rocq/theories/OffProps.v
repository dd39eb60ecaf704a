(** * What is learned along with latent random offsets: properties C203 to C206. *)
From Coq Require Import List ZArith Reals Arith Bool Lia Lra Permutation.
From Verif Require Import Base RealModel VbModel RealProofs VbProofs BoundProofs StmProofs OffModel OffSpec OffProofs OffMore.
Import ListNotations.
Open Scope nat_scope.

(** ** Two topics: an inverse, and sums *)
Definition inv_two (K : nat) (M : mat) : res mat :=
  let d := (M 0%nat 0%nat * M 1%nat 1%nat - M 0%nat 1%nat * M 1%nat 0%nat)%R in
  if Req_EM_T d 0 then Raise LinAlgError
  else Ok (fun i j => ((if i =? j then M (1 - i)%nat (1 - j)%nat else - M i j) / d)%R).
Lemma vsum_two (f : vec) : vsum 2 f = (f 0%nat + f 1%nat)%R.
Proof. rewrite 2 vsum_S. unfold vsum, rsum. cbn [seq map fold_right]. ring. Qed.
Lemma inv_two_inverts : inverts inv_two 2.
Proof.
  intros M. unfold inv_two. destruct (Req_EM_T _ 0) as [Z|NZ].
  - split; [reflexivity|]. intros N H.
    assert (A := H 0 0 ltac:(lia) ltac:(lia)). assert (B := H 0 1 ltac:(lia) ltac:(lia)).
    assert (C := H 1 0 ltac:(lia) ltac:(lia)). assert (E := H 1 1 ltac:(lia) ltac:(lia)).
    rewrite vsum_two in A, B, C, E. cbn [Nat.eqb] in A, B, C, E.
    assert (X : ((M 0%nat 0%nat * M 1%nat 1%nat - M 0%nat 1%nat * M 1%nat 0%nat)
                 * (N 0%nat 0%nat * N 1%nat 1%nat - N 0%nat 1%nat * N 1%nat 0%nat)
                 = (M 0%nat 0%nat * N 0%nat 0%nat + M 0%nat 1%nat * N 1%nat 0%nat) * (M 1%nat 0%nat * N 0%nat 1%nat + M 1%nat 1%nat * N 1%nat 1%nat)
                   - (M 0%nat 0%nat * N 0%nat 1%nat + M 0%nat 1%nat * N 1%nat 1%nat) * (M 1%nat 0%nat * N 0%nat 0%nat + M 1%nat 1%nat * N 1%nat 0%nat))%R) by ring.
    rewrite A, B, C, E, Z in X. lra.
  - intros i j Hi Hj. rewrite vsum_two.
    destruct i as [|[|i]]; [| |lia]; (destruct j as [|[|j]]; [| |lia]); cbn [Nat.eqb Nat.sub]; field; exact NZ.
Qed.

(** Two documents that link to each other, with topics in mirror image. *)
Definition mutual : list (list nat) := [[1]; [0]].
Definition mirror (e : R) : mat := fun d k => if d =? k then (1 - e)%R else e.
Lemma mutual_self : no_self_links 2 mutual.
Proof. intros [|[|p]] L I; [| |lia]; cbn in I; lia. Qed.
Lemma mirror_ok e : (0 <= e <= 1)%R -> topics_ok 2 2 (mirror e).
Proof.
  intros E d L. split.
  - intros k _. unfold mirror. destruct (d =? k); lra.
  - rewrite vsum_two. unfold mirror. destruct d as [|[|d]]; [| |lia]; cbn [Nat.eqb]; lra.
Qed.
Lemma mutual_side_l w0 w1 tops offs :
  side_l 2 2 mutual w0 w1 tops offs = (w1 * (meet 2 tops offs 0 1) ^ 2 + w1 * (meet 2 tops offs 1 0) ^ 2)%R.
Proof. unfold side_l. rewrite vsum_two, 2 vsum_two. cbn -[Rmult Rplus meet pow]. ring. Qed.
Lemma mutual_side_r w1 tops offs :
  side_r 2 2 mutual w1 tops offs = (w1 * meet 2 tops offs 0 1 + w1 * meet 2 tops offs 1 0)%R.
Proof. unfold side_r. rewrite vsum_two, 2 vsum_two. cbn -[Rmult Rplus meet]. ring. Qed.
Lemma mutual_misfit w0 w1 tops s offs :
  misfit w0 w1 2 2 (has_link mutual) tops s offs
  = (w1 * (1 - s * meet 2 tops offs 0 1) ^ 2 + w1 * (1 - s * meet 2 tops offs 1 0) ^ 2)%R.
Proof. unfold misfit. rewrite vsum_two, 2 vsum_two. cbn -[Rmult Rplus Rminus meet pow]. ring. Qed.
Lemma mirror_meet e offs d p :
  meet 2 (mirror e) offs d p = (if d =? 0 then (1 - e) * offs p 0%nat + (if d =? 1 then 1 - e else e) * offs p 1%nat
                                else if d =? 1 then e * offs p 0%nat + (1 - e) * offs p 1%nat else e * offs p 0%nat + e * offs p 1%nat)%R.
Proof.
  unfold meet. rewrite vsum_two. unfold mirror. destruct d as [|[|d]]; cbn [Nat.eqb]; reflexivity.
Qed.

(** Training with topics that are there already. *)
Definition learn (inv : nat -> mat -> res mat) (K D : nat) (links : list (list nat)) (m : lro_model unit) (tops : mat)
  (iterations : nat) (eps : option R) : res (lro_model unit * lro_query mat) :=
  lro_train (fun _ => true) (fun _ => K) (fun _ => tops) (fun _ q => Ok q) (fun m q => Ok (m, q)) (fun q => q)
    inv D links m (mkLQ tops (fun _ _ => 0%R)) iterations eps false.
Lemma learn_is inv K D links m tops iterations eps :
  learn inv K D links m tops iterations (Some eps)
  = do (s, offs) <- lro_loop inv K D links (lm_var0 m) (lm_var1 m) (lm_noise m) tops iterations eps (lm_scale m) tops;
    Ok (mkLM tt K (lm_noise m) (lm_var0 m) (lm_var1 m) s, mkLQ tops offs).
Proof. destruct m as [[] K' n v0 v1 s]. reflexivity. Qed.

Section Theorems.
  Context {LM LQ : Type}.
  Context (processed : LM -> bool) (lda_K : LM -> nat) (lda_new_query : LM -> LQ)
          (lda_query : LM -> LQ -> res LQ) (lda_train : LM -> LQ -> res (LM * LQ)) (topicDists : LQ -> mat).
  Notation train inv D links := (lro_train processed lda_K lda_new_query lda_query lda_train topicDists inv D links).
  Notation ask inv D links := (lro_ask processed lda_K lda_new_query lda_query lda_train topicDists inv D links).

  (** ** C203: the scale *)
  Theorem C203_scale_is_best inv D links m q n eps asked m' q' :
    no_self_links D links -> (0 <= lm_var0 m)%R -> (0 <= lm_var1 m)%R ->
    train inv D links m q (S n) eps asked = Ok (m', q') ->
    exists i m1 q1, i <= n /\ train inv D links m q i (Some 0%R) asked = Ok (m1, q1) /\ lq_lda q1 = lq_lda q' /\
      best_scale (lm_var0 m) (lm_var1 m) (lm_K m') D (has_link links) (topicDists (lq_lda q')) (lq_offs q1) (lm_scale m').
  Proof using Type.
    intros NS P0 P1. unfold lro_train. cbv zeta.
    destruct (if asked then _ else _) as [[lm lq]|]; [|discriminate]. cbn [bind].
    destruct (lro_loop _ _ _ _ _ _ _ _ (S n) _ _ _) as [[s offs]|] eqn:E; [|discriminate]. cbn [bind].
    intros H. inversion H. subst m' q'. clear H. cbn [lm_K lq_lda lm_scale].
    destruct (loop_best _ _ _ _ _ _ _ _ NS P0 P1 _ _ _ _ _ _ E) as [i [s1 [offs1 [L [X [Y _]]]]]].
    exists i, (mkLM lm (lda_K (lm_lda m)) (lm_noise m) (lm_var0 m) (lm_var1 m) s1), (mkLQ lq offs1).
    split; [exact L|]. rewrite X. cbn [bind]. split; [reflexivity|]. split; [reflexivity|exact Y].
  Qed.

  (** ** C204: the offsets *)
  Theorem C204_offsets_are inv D links m q n eps asked m' q' :
    no_self_links D links -> (0 <= lm_var0 m)%R -> (0 <= lm_var1 m)%R -> (0 < lm_noise m)%R ->
    inverts inv (lm_K m') -> topics_ok (lm_K m') D (topicDists (lq_lda q')) ->
    train inv D links m q (S n) eps asked = Ok (m', q') ->
    forall p j, p < D -> j < lm_K m' ->
      lq_offs q' p j = offset_is (lm_var0 m) (lm_var1 m) (lm_noise m) (lm_K m') D (has_link links)
                         (topicDists (lq_lda q')) (lm_scale m') p j.
  Proof using Type.
    intros NS P0 P1 PN V TO. unfold lro_train. cbv zeta.
    destruct (if asked then _ else _) as [[lm lq]|]; [|discriminate]. cbn [bind].
    destruct (lro_loop _ _ _ _ _ _ _ _ (S n) _ _ _) as [[s offs]|] eqn:E; [|discriminate]. cbn [bind].
    intros H. inversion H. subst m' q'. clear H. cbn [lm_K lq_lda lm_scale lq_offs] in *.
    destruct (loop_best _ _ _ _ _ _ _ _ NS P0 P1 _ _ _ _ _ _ E) as [i [s1 [offs1 [_ [_ [_ Y]]]]]].
    destruct (new_offsets_ok inv (lda_K (lm_lda m)) D links (lm_var0 m) (lm_var1 m) (lm_noise m) (topicDists lq) V NS P0 P1 PN) with (s := s)
      as [o [Eo X]].
    { intros d k Ld Lk. apply TO; assumption. }
    rewrite Y in Eo. inversion Eo. subst o. exact X.
  Qed.

  Theorem C204_unlinked_document_shrinks inv D links m q n eps asked m' q' p :
    no_self_links D links -> lm_var0 m = 0%R -> (0 <= lm_var1 m)%R -> (0 < lm_noise m)%R ->
    inverts inv (lm_K m') -> topics_ok (lm_K m') D (topicDists (lq_lda q')) ->
    train inv D links m q (S n) eps asked = Ok (m', q') ->
    p < D -> (forall d, d < D -> ~ In p (nth d links [])) ->
    forall j, j < lm_K m' -> lq_offs q' p j = (topicDists (lq_lda q') p j / lm_noise m)%R.
  Proof using Type.
    intros NS Z0 P1 PN V TO H Lp NL j Lj.
    rewrite (C204_offsets_are inv D links m q n eps asked m' q' NS ltac:(lra) P1 PN V TO H p j Lp Lj).
    assert (F : forall d, d < D -> has_link links d p = false).
    { intros d Ld. unfold has_link. destruct (in_dec _ _ _) as [I|]; [destruct (NL d Ld I)|reflexivity]. }
    unfold offset_is. cbv zeta.
    assert (PZ : forall k, pull (lm_var0 m) (lm_var1 m) D (has_link links) (topicDists (lq_lda q')) p k = 0%R).
    { intros k. apply vsum_0. intros d Ld. unfold pair_weight. rewrite F, Z0 by exact Ld. destruct (d =? p); ring. }
    assert (FZ : fans D (has_link links) (topicDists (lq_lda q')) p j = 0%R).
    { apply vsum_0. intros d Ld. rewrite F by exact Ld. reflexivity. }
    rewrite PZ, FZ. unfold Rdiv. ring.
  Qed.

  (** ** C205: when training succeeds *)
  Theorem C205_raises_value_error_only inv D links m q n eps :
    0 < D -> no_self_links D links -> (0 <= lm_var0 m)%R -> (0 <= lm_var1 m)%R -> (0 < lm_noise m)%R ->
    processed (lm_lda m) = true -> inverts inv (lda_K (lm_lda m)) ->
    topics_ok (lda_K (lm_lda m)) D (topicDists (lq_lda q)) ->
    (exists m' q', train inv D links m q n eps false = Ok (m', q')) \/ train inv D links m q n eps false = Raise ValueError.
  Proof using Type.
    intros L NS P0 P1 PN HP V TO. unfold lro_train. cbv zeta. rewrite HP. cbn [bind].
    destruct (loop_raises inv (lda_K (lm_lda m)) D links (lm_var0 m) (lm_var1 m) (lm_noise m) (topicDists (lq_lda q)) V NS P0 P1 PN) with
      (n := n) (eps := match eps with Some e => e | None => (1 / 100 * INR D * INR (lda_K (lm_lda m)))%R end)
      (s0 := lm_scale m) (offs0 := topicDists (lq_lda q)) as [[s [offs E]]|E].
    { intros d k Ld Lk. apply TO; assumption. }
    { exact L. }
    - left. rewrite E. cbn [bind]. eexists. eexists. reflexivity.
    - right. rewrite E. reflexivity.
  Qed.

  Theorem C205_one_iteration inv D links m q eps d p :
    no_self_links D links -> (0 <= lm_var0 m)%R -> (0 < lm_var1 m)%R -> (0 < lm_noise m)%R -> lm_scale m <> 0%R ->
    processed (lm_lda m) = true -> inverts inv (lda_K (lm_lda m)) ->
    topics_ok (lda_K (lm_lda m)) D (topicDists (lq_lda q)) ->
    d < D -> p < D -> In p (nth d links []) ->
    (exists k, k < lda_K (lm_lda m) /\ (0 < topicDists (lq_lda q) d k)%R /\ (0 < topicDists (lq_lda q) p k)%R) ->
    exists m' q', train inv D links m q 1 eps false = Ok (m', q') /\ (0 < lm_scale m')%R.
  Proof using Type.
    intros NS P0 P1 PN N0 HP V TO Ld Lp I [k [Lk [X1 X2]]].
    assert (HL : has_link links d p = true).
    { unfold has_link. destruct (in_dec _ _ _); [reflexivity|contradiction]. }
    set (K := lda_K (lm_lda m)) in *. set (tops := topicDists (lq_lda q)) in *.
    assert (MN : forall a b, a < D -> b < D -> (0 <= meet K tops tops a b)%R).
    { intros a b La Lb. apply vsum_nonneg. intros j Lj. apply Rmult_le_pos; apply TO; assumption. }
    assert (MP : (0 < meet K tops tops d p)%R).
    { apply Rlt_le_trans with (tops d k * tops p k)%R; [apply Rmult_lt_0_compat; assumption|].
      apply (vsum_in_le K (fun k => (tops d k * tops p k)%R)); [|exact Lk].
      intros j Lj. apply Rmult_le_pos; apply TO; assumption. }
    assert (SL : (0 < side_l K D links (lm_var0 m) (lm_var1 m) tops tops)%R).
    { unfold side_l. assert (W : forall a b, (0 <= pair_weight (lm_var0 m) (lm_var1 m) (has_link links) a b * meet K tops tops a b ^ 2)%R).
      { intros a b. apply Rmult_le_pos; [|apply pow2_ge_0]. unfold pair_weight. destruct (has_link links a b); [left; exact P1|]. destruct (a =? b); [apply Rle_refl|exact P0]. }
      apply Rlt_le_trans with (pair_weight (lm_var0 m) (lm_var1 m) (has_link links) d p * meet K tops tops d p ^ 2)%R.
      - unfold pair_weight. rewrite HL. apply Rmult_lt_0_compat; [exact P1|]. apply pow_lt. exact MP.
      - apply Rle_trans with (vsum D (fun a => (pair_weight (lm_var0 m) (lm_var1 m) (has_link links) a p * meet K tops tops a p ^ 2)%R)).
        + apply (vsum_in_le D (fun a => (pair_weight (lm_var0 m) (lm_var1 m) (has_link links) a p * meet K tops tops a p ^ 2)%R)); [|exact Ld].
          intros; apply W.
        + apply (vsum_in_le D (fun b => vsum D (fun a => (pair_weight (lm_var0 m) (lm_var1 m) (has_link links) a b * meet K tops tops a b ^ 2)%R))); [|exact Lp].
          intros; apply vsum_nonneg. intros; apply W. }
    assert (SR : (0 < side_r K D links (lm_var1 m) tops tops)%R).
    { unfold side_r. assert (W : forall a b, a < D -> b < D -> (0 <= if has_link links a b then lm_var1 m * meet K tops tops a b else 0)%R).
      { intros a b La Lb. destruct (has_link links a b); [|lra]. apply Rmult_le_pos; [left; exact P1|apply MN; assumption]. }
      apply Rlt_le_trans with (if has_link links d p then lm_var1 m * meet K tops tops d p else 0)%R.
      - rewrite HL. apply Rmult_lt_0_compat; [exact P1|exact MP].
      - apply Rle_trans with (vsum D (fun a => if has_link links a p then (lm_var1 m * meet K tops tops a p)%R else 0%R)).
        + apply (vsum_in_le D (fun a => if has_link links a p then (lm_var1 m * meet K tops tops a p)%R else 0%R)); [|exact Ld].
          intros; apply W; assumption.
        + apply (vsum_in_le D (fun b => vsum D (fun a => if has_link links a b then (lm_var1 m * meet K tops tops a b)%R else 0%R))); [|exact Lp].
          intros; apply vsum_nonneg. intros; apply W; assumption. }
    destruct (loop_one inv K D links (lm_var0 m) (lm_var1 m) (lm_noise m) tops V NS P0 (Rlt_le _ _ P1) PN) with
      (eps := match eps with Some e => e | None => (1 / 100 * INR D * INR K)%R end)
      (s0 := lm_scale m) (offs0 := tops) as [offs [E _]]; try lra.
    { intros a j La Lj. apply TO; assumption. }
    { lia. }
    unfold lro_train. cbv zeta. rewrite HP. cbn [bind]. fold K tops. rewrite E. cbn [bind].
    eexists. eexists. split; [reflexivity|]. cbn [lm_scale]. unfold step_scale. apply Rdiv_lt_0_compat; assumption.
  Qed.

  Theorem C205_no_links_raises inv D links m q n eps :
    0 < D -> lm_noise m <> 0%R -> processed (lm_lda m) = true -> inverts inv (lda_K (lm_lda m)) ->
    (forall d p, d < D -> ~ In p (nth d links [])) ->
    train inv D links m q (S n) eps false = Raise ValueError.
  Proof using Type.
    intros L PN HP V NL. unfold lro_train. cbv zeta. rewrite HP. cbn [bind].
    rewrite lonely_raises by assumption. reflexivity.
  Qed.

  (** ** C206: what stays as it is *)
  Theorem C206_order_of_documents inv D links links' m q q' n eps order :
    Permutation order (seq 0 D) ->
    no_self_links D links -> (0 <= lm_var0 m)%R -> (0 <= lm_var1 m)%R -> (0 < lm_noise m)%R ->
    processed (lm_lda m) = true -> inverts inv (lda_K (lm_lda m)) ->
    topics_ok (lda_K (lm_lda m)) D (topicDists (lq_lda q)) ->
    (forall d k, d < D -> k < lda_K (lm_lda m) -> topicDists (lq_lda q') d k = topicDists (lq_lda q) (nth d order 0) k) ->
    (forall d p, d < D -> p < D -> In p (nth d links' []) <-> In (nth p order 0) (nth (nth d order 0) links [])) ->
    match train inv D links m q n eps false, train inv D links' m q' n eps false with
    | Ok (m1, q1), Ok (m2, q2) =>
        lm_scale m2 = lm_scale m1 /\
        forall d k, d < D -> k < lda_K (lm_lda m) -> lq_offs q2 d k = lq_offs q1 (nth d order 0) k
    | Raise e, Raise e' => e' = e
    | _, _ => False
    end.
  Proof using Type.
    intros PO NS P0 P1 PN HP V TO HT HL. unfold lro_train. cbv zeta. rewrite HP. cbn [bind].
    assert (X := order_loop inv (lda_K (lm_lda m)) D links links' (lm_var0 m) (lm_var1 m) (lm_noise m)
                   (topicDists (lq_lda q)) (topicDists (lq_lda q')) V NS P0 P1 PN).
    specialize (X ltac:(intros d k Ld Lk; apply TO; assumption) order PO HT).
    assert (HL' : forall d p, d < D -> p < D -> has_link links' d p = has_link links (nth d order 0) (nth p order 0)).
    { intros d p Ld Lp. specialize (HL d p Ld Lp). unfold has_link.
      destruct (in_dec _ _ _) as [A|A]; destruct (in_dec _ _ _) as [B|B]; try reflexivity; tauto. }
    specialize (X HL' n (match eps with Some e => e | None => (1 / 100 * INR D * INR (lda_K (lm_lda m)))%R end)
                  (lm_scale m) (topicDists (lq_lda q)) (topicDists (lq_lda q')) HT).
    destruct (lro_loop _ _ _ links _ _ _ _ _ _ _ _) as [[s offs]|e]; destruct (lro_loop _ _ _ links' _ _ _ _ _ _ _ _) as [[s' offs']|e'];
      cbn [bind]; exact X.
  Qed.

  Theorem C206_query_keeps_model inv D links m q n eps m' q' :
    ask inv D links m q n eps = Ok (m', q') -> m' = m.
  Proof using Type.
    unfold lro_ask. destruct (lro_train _ _ _ _ _ _ _ _ _ _ _ _ _ _) as [[a b]|]; [|discriminate]. cbn [bind].
    intros H. inversion H. reflexivity.
  Qed.
  Theorem C206_query_starts_afresh inv D links m q1 q2 n eps :
    ask inv D links m q1 n eps = ask inv D links m q2 n eps.
  Proof using Type. reflexivity. Qed.
  Theorem C206_trained_topics_kept inv D links m q n eps m' q' :
    processed (lm_lda m) = true -> train inv D links m q n eps false = Ok (m', q') ->
    lm_lda m' = lm_lda m /\ lq_lda q' = lq_lda q.
  Proof using Type.
    intros HP. unfold lro_train. cbv zeta. rewrite HP. cbn [bind].
    destruct (lro_loop _ _ _ _ _ _ _ _ _ _ _ _) as [[s offs]|]; [|discriminate]. cbn [bind].
    intros H. inversion H. split; reflexivity.
  Qed.
  Theorem C206_no_iterations inv D links m q eps asked m' q' :
    train inv D links m q 0 eps asked = Ok (m', q') ->
    lm_scale m' = lm_scale m /\ lq_offs q' = topicDists (lq_lda q').
  Proof using Type.
    unfold lro_train. cbv zeta.
    destruct (if asked then _ else _) as [[lm lq]|]; [|discriminate]. cbn [bind lro_loop].
    intros H. inversion H. split; reflexivity.
  Qed.
End Theorems.

(** ** Two documents that link to each other *)
Section Mutual.
  Context (e lam : R) (PE : (0 < e < 1)%R) (PL : (0 < lam)%R).
  Notation c := (2 * e * (1 - e))%R.
  Notation n := ((1 - e) * (1 - e) + e * e)%R.
  Notation model := (mkLM tt 2 lam (1 / 100) 1 1)%R.
  Definition shared (s : R) : R := ((c + s * n - s * s * n * (n + s * c) / (lam + s * s * c)) / lam)%R.

  Lemma c_pos : (0 < c)%R.
  Proof using PE. clear lam PL. apply Rmult_lt_0_compat; lra. Qed.
  Lemma mirror_nonneg : forall d k, d < 2 -> k < 2 -> (0 <= mirror e d k)%R.
  Proof using PE. intros d k _ _. unfold mirror. destruct (d =? k); lra. Qed.
  Lemma mirror_own d p : d < 2 -> p < 2 -> d <> p -> meet 2 (mirror e) (mirror e) d p = c.
  Proof using Type.
    intros Ld Lp N. rewrite mirror_meet. destruct d as [|[|d]]; [| |lia]; (destruct p as [|[|p]]; [| |lia]); try lia;
      unfold mirror; cbn [Nat.eqb]; ring.
  Qed.
  Lemma mirror_scale : step_scale 2 2 mutual (1 / 100) 1 (mirror e) (mirror e) = (/ c)%R.
  Proof using PE.
    unfold step_scale. rewrite mutual_side_l, mutual_side_r, !mirror_own by lia. assert (Z := c_pos). set (x := (2 * e * (1 - e))%R) in *. assert (0 < x * x)%R by (apply Rmult_lt_0_compat; exact Z). field. split; cbn; lra.
  Qed.
  Lemma mutual_offset s p j : p < 2 -> (lam + s * s * c <> 0)%R ->
    offset_is (1 / 100) 1 lam 2 2 (has_link mutual) (mirror e) s p j
    = ((mirror e p j + s * mirror e (1 - p)%nat j - s * s * mirror e (1 - p)%nat j * (n + s * c) / (lam + s * s * c)) / lam)%R.
  Proof using PL.
    intros Lp NZ. unfold offset_is. cbv zeta. rewrite 2 vsum_two.
    assert (EP : forall k, pull (1 / 100) 1 2 (has_link mutual) (mirror e) p k = mirror e (1 - p)%nat k).
    { intros k. unfold pull. rewrite vsum_two. destruct p as [|[|p]]; [| |lia]; unfold pair_weight; cbn [Nat.sub].
      - change (has_link mutual 0 0) with false. change (has_link mutual 1 0) with true. cbn [Nat.eqb]. ring.
      - change (has_link mutual 0 1) with true. change (has_link mutual 1 1) with false. cbn [Nat.eqb]. ring. }
    assert (EF : forall k, fans 2 (has_link mutual) (mirror e) p k = mirror e (1 - p)%nat k).
    { intros k. unfold fans. rewrite vsum_two. destruct p as [|[|p]]; [| |lia]; cbn [Nat.sub].
      - change (has_link mutual 0 0) with false. change (has_link mutual 1 0) with true. cbv iota. ring.
      - change (has_link mutual 0 1) with true. change (has_link mutual 1 1) with false. cbv iota. ring. }
    rewrite !EP, !EF.
    assert (ED : (lam + (mirror e p 0%nat * (s * s * mirror e (1 - p)%nat 0%nat) + mirror e p 1%nat * (s * s * mirror e (1 - p)%nat 1%nat))
                  = lam + s * s * c)%R).
    { destruct p as [|[|p]]; [| |lia]; unfold mirror; cbn [Nat.eqb Nat.sub]; ring. }
    rewrite ED.
    assert (EN : (mirror e p 0%nat * (mirror e p 0%nat + s * 1 * mirror e (1 - p)%nat 0%nat) + mirror e p 1%nat * (mirror e p 1%nat + s * 1 * mirror e (1 - p)%nat 1%nat)
                  = n + s * c)%R).
    { destruct p as [|[|p]]; [| |lia]; unfold mirror; cbn [Nat.eqb Nat.sub]; ring. }
    rewrite EN. field. split; [intros X; apply NZ; rewrite <- X; ring|lra].
  Qed.
  Lemma mutual_shared s o d p : (lam + s * s * c <> 0)%R ->
    (forall p j, p < 2 -> j < 2 -> o p j = offset_is (1 / 100) 1 lam 2 2 (has_link mutual) (mirror e) s p j) ->
    d < 2 -> p < 2 -> d <> p -> meet 2 (mirror e) o d p = shared s.
  Proof using PL.
    intros NZ H Ld Lp N. unfold meet. rewrite vsum_two, !H, !mutual_offset by (try exact NZ; lia). unfold shared.
    assert (LZ : lam <> 0%R) by lra.
    destruct d as [|[|d]]; [| |lia]; (destruct p as [|[|p]]; [| |lia]); try lia;
      unfold mirror; cbn [Nat.eqb Nat.sub]; field; (split; [intros X; apply NZ; rewrite <- X; ring|exact LZ]).
  Qed.
  Lemma den_pos s : (0 < lam + s * s * c)%R.
  Proof using PE PL.
    assert (Z := c_pos). assert (X := pow2_ge_0 s). assert (0 <= s * s * c)%R; [|lra]. apply Rmult_le_pos; lra.
  Qed.
  Lemma mutual_one eps : exists o,
    learn inv_two 2 2 mutual model (mirror e) 1 (Some eps) = Ok (mkLM tt 2 lam (1 / 100) 1 (/ c), mkLQ (mirror e) o)%R /\
    (forall p j, p < 2 -> j < 2 -> o p j = offset_is (1 / 100) 1 lam 2 2 (has_link mutual) (mirror e) (/ c) p j).
  Proof using PE PL.
    assert (Z := c_pos).
    destruct (loop_one inv_two 2 2 mutual (1 / 100) 1 lam (mirror e) inv_two_inverts mutual_self ltac:(lra) ltac:(lra) PL mirror_nonneg
                eps 1%R (mirror e)) as [o [E X]].
    { lia. } { lra. }
    { rewrite mutual_side_l, !mirror_own by lia. assert (0 < c ^ 2)%R by (apply pow_lt; exact Z). lra. }
    { rewrite mutual_side_r, !mirror_own by lia. lra. }
    rewrite mirror_scale in E, X. exists o. split; [|exact X].
    rewrite learn_is. cbn [lm_var0 lm_var1 lm_noise lm_scale]. rewrite E. reflexivity.
  Qed.
  Lemma mutual_two : shared (/ c) <> 0%R -> exists o,
    learn inv_two 2 2 mutual model (mirror e) 2 (Some 0%R) = Ok (mkLM tt 2 lam (1 / 100) 1 (/ shared (/ c)), mkLQ (mirror e) o)%R.
  Proof using PE PL.
    intros NS. assert (Z := c_pos). rewrite learn_is. cbn [lm_var0 lm_var1 lm_noise lm_scale].
    rewrite (loop_S inv_two 2 2 mutual (1 / 100) 1 lam (mirror e) mutual_self) by lia.
    destruct (Req_EM_T 1 0); [lra|].
    destruct (Req_EM_T _ 0) as [A|_].
    { exfalso. revert A. rewrite mutual_side_l, !mirror_own by lia. assert (0 < c ^ 2)%R by (apply pow_lt; exact Z). lra. }
    rewrite mirror_scale.
    destruct (new_offsets_ok inv_two 2 2 mutual (1 / 100) 1 lam (mirror e) inv_two_inverts mutual_self ltac:(lra) ltac:(lra) PL mirror_nonneg (/ c)%R) as [o [E X]].
    rewrite E. cbn [bind]. unfold norm_over.
    assert (PC : (0 < / c)%R) by (apply Rinv_0_lt_compat; exact Z).
    destruct (Req_EM_T (/ c) 0) as [A|NC]; [lra|]. cbn [bind].
    match goal with |- context [Rlt_dec (Rabs ?x) 0%R] => destruct (Rlt_dec (Rabs x) 0%R) as [A|_]; [assert (Y := Rabs_pos x); lra|] end.
    assert (M : forall d p, d < 2 -> p < 2 -> d <> p -> meet 2 (mirror e) o d p = shared (/ c)).
    { intros d p Ld Lp N. apply mutual_shared; try assumption. assert (Y := den_pos (/ c)). lra. }
    destruct (loop_one inv_two 2 2 mutual (1 / 100) 1 lam (mirror e) inv_two_inverts mutual_self ltac:(lra) ltac:(lra) PL mirror_nonneg
                0%R (/ c)%R o) as [o2 [E2 _]].
    { lia. } { exact NC. }
    { rewrite mutual_side_l, !M by lia. assert (Y := pow2_ge_0 (shared (/ c))). assert (W := pow_nonzero _ 2 NS). lra. }
    { rewrite mutual_side_r, !M by lia. lra. }
    exists o2. rewrite E2. cbn [bind]. repeat f_equal. unfold step_scale. rewrite mutual_side_l, mutual_side_r, !M by lia.
    field. split; [exact NS|]. assert (Y := pow2_ge_0 (shared (/ c))). assert (W := pow_nonzero _ 2 NS). lra.
  Qed.
End Mutual.

(** The scale is not best for the offsets it is returned with, which came after it. *)
Theorem C203_scale_fits_offsets_refuted : exists K D links tops m' q',
  topics_ok K D tops /\ no_self_links D links /\
  inverts inv_two K /\ learn inv_two K D links (lro_default tt K) tops 1 None = Ok (m', q') /\
  ~ best_scale (lm_var0 m') (lm_var1 m') K D (has_link links) tops (lq_offs q') (lm_scale m').
Proof.
  destruct (mutual_one (1 / 3) 9 ltac:(lra) ltac:(lra) (1 / 100 * INR 2 * INR 2)) as [o [E X]].
  exists 2, 2, mutual, (mirror (1 / 3)). eexists. eexists.
  split; [apply mirror_ok; lra|]. split; [exact mutual_self|]. split; [exact inv_two_inverts|]. split; [exact E|].
  cbn [lm_var0 lm_var1 lq_offs lm_scale]. intros B.
  assert (N : (9 + / (2 * (1 / 3) * (1 - 1 / 3)) * / (2 * (1 / 3) * (1 - 1 / 3)) * (2 * (1 / 3) * (1 - 1 / 3)) <> 0)%R) by lra.
  assert (M : forall d p, d < 2 -> p < 2 -> d <> p -> meet 2 (mirror (1 / 3)) o d p = shared (1 / 3) 9 (/ (2 * (1 / 3) * (1 - 1 / 3)))).
  { intros d p Ld Lp ND. apply mutual_shared; try assumption. lra. }
  assert (S9 : shared (1 / 3) 9 (/ (2 * (1 / 3) * (1 - 1 / 3))) = (47 / 324)%R) by (unfold shared; field).
  specialize (B (324 / 47)%R). rewrite 2 mutual_misfit, !M, S9 in B by lia.
  assert (Y : (324 / 47 <> / (2 * (1 / 3) * (1 - 1 / 3)))%R) by (intros Y; lra). specialize (B Y). lra.
Qed.

(** Two documents that link to each other and have little in common: after two
    iterations the scale is negative, so of two documents the one that has more in common
    with the offset of a third has the lower score. *)
Theorem C203_scale_positive_refuted : exists K D links tops m' q',
  topics_ok K D tops /\ no_self_links D links /\ inverts inv_two K /\
  learn inv_two K D links (lro_default tt K) tops 2 (Some 0%R) = Ok (m', q') /\ (lm_scale m' < 0)%R.
Proof.
  assert (S9 : shared (1 / 100) 9 (/ (2 * (1 / 100) * (1 - 1 / 100))) = (- (98207312309 / 26244405000))%R) by (unfold shared; field).
  destruct (mutual_two (1 / 100) 9 ltac:(lra) ltac:(lra)) as [o E]; [lra|].
  exists 2, 2, mutual, (mirror (1 / 100)). eexists. eexists.
  split; [apply mirror_ok; lra|]. split; [exact mutual_self|]. split; [exact inv_two_inverts|]. split; [exact E|].
  cbn [lm_scale]. rewrite S9. apply Rinv_lt_0_compat. lra.
Qed.

(** Two documents with the same topics, one link. *)
Definition single : list (list nat) := [[1]; []].
Lemma single_self : no_self_links 2 single.
Proof. intros [|[|p]] L I; [| |lia]; cbn in I; lia. Qed.
Lemma single_side_l w0 w1 tops offs :
  side_l 2 2 single w0 w1 tops offs = (w0 * (meet 2 tops offs 1 0) ^ 2 + w1 * (meet 2 tops offs 0 1) ^ 2)%R.
Proof. unfold side_l. rewrite vsum_two, 2 vsum_two. cbn -[Rmult Rplus meet pow]. ring. Qed.
Lemma single_side_r w1 tops offs : side_r 2 2 single w1 tops offs = (w1 * meet 2 tops offs 0 1)%R.
Proof. unfold side_r. rewrite vsum_two, 2 vsum_two. cbn -[Rmult Rplus meet]. ring. Qed.
Lemma single_misfit w0 w1 tops s offs :
  misfit w0 w1 2 2 (has_link single) tops s offs
  = (w0 * (s * meet 2 tops offs 1 0) ^ 2 + w1 * (1 - s * meet 2 tops offs 0 1) ^ 2)%R.
Proof. unfold misfit. rewrite vsum_two, 2 vsum_two. cbn -[Rmult Rplus Rminus meet pow]. ring. Qed.
(** What newModelAtRandom calls variances are precisions: the scale is not the best when
    the errors of pairs have them for variances. *)
Theorem C203_variances_refuted : exists K D links tops m' q',
  topics_ok K D tops /\ no_self_links D links /\ inverts inv_two K /\
  learn inv_two K D links (lro_default tt K) tops 1 (Some 0%R) = Ok (m', q') /\
  ~ best_scale (/ lm_var0 m') (/ lm_var1 m') K D (has_link links) tops tops (lm_scale m').
Proof.
  assert (M : forall d p, d < 2 -> p < 2 -> d <> p -> meet 2 (mirror (1 / 2)) (mirror (1 / 2)) d p = (1 / 2)%R).
  { intros d p Ld Lp N. rewrite mirror_own by assumption. field. }
  destruct (loop_one inv_two 2 2 single (1 / 100) 1 9 (mirror (1 / 2)) inv_two_inverts single_self ltac:(lra) ltac:(lra) ltac:(lra)
              (mirror_nonneg (1 / 2) ltac:(lra)) 0%R 1%R (mirror (1 / 2))) as [o [E _]].
  { lia. } { lra. }
  { rewrite single_side_l, !M by lia. lra. }
  { rewrite single_side_r, !M by lia. lra. }
  unfold step_scale in E. rewrite single_side_l, single_side_r, !M in E by lia.
  exists 2, 2, single, (mirror (1 / 2)). eexists. eexists.
  split; [apply mirror_ok; lra|]. split; [exact single_self|]. split; [exact inv_two_inverts|].
  split; [rewrite learn_is; cbn [lm_var0 lm_var1 lm_noise lm_scale lro_default]; rewrite E; reflexivity|].
  cbn [lm_var0 lm_var1 lm_scale lro_default]. intros B. specialize (B (2 / 101)%R). rewrite 2 single_misfit, !M in B by lia.
  assert (Y : (2 / 101 <> 1 * (1 / 2) / (1 / 100 * (1 / 2) ^ 2 + 1 * (1 / 2) ^ 2))%R) by (intros Y; lra).
  specialize (B Y). lra.
Qed.

(** The offsets are not the best, whether the noise is nine as it is when not given, or
    one: the topics themselves fit the links perfectly, and one iteration moves away. *)
Theorem C204_offsets_best_refuted : exists K D links tops s,
  topics_ok K D tops /\ no_self_links D links /\ inverts inv_two K /\
  forall lam, lam = lm_noise (lro_default tt K) \/ lam = 1%R -> exists m' q',
    learn inv_two K D links (mkLM tt K lam (lm_var0 (lro_default tt K)) (lm_var1 (lro_default tt K)) 1%R) tops 1 None = Ok (m', q') /\
    lm_scale m' = s /\
    loss (lm_var0 m') (lm_var1 m') lam K D (has_link links) tops s tops = 0%R /\
    (0 < loss (lm_var0 m') (lm_var1 m') lam K D (has_link links) tops s (lq_offs q'))%R.
Proof.
  exists 2, 2, mutual, (mirror (1 / 3)), (/ (2 * (1 / 3) * (1 - 1 / 3)))%R.
  split; [apply mirror_ok; lra|]. split; [exact mutual_self|]. split; [exact inv_two_inverts|].
  intros lam HL. assert (PL : (0 < lam)%R) by (destruct HL as [->| ->]; cbn [lm_noise lro_default]; lra).
  destruct (mutual_one (1 / 3) lam ltac:(lra) PL (1 / 100 * INR 2 * INR 2)) as [o [E X]].
  eexists. eexists. split; [exact E|]. cbn [lm_scale lm_var0 lm_var1 lq_offs]. split; [reflexivity|].
  assert (AS : forall x, (0 <= astray 2 2 (mirror (1 / 3)) x)%R).
  { intros x. apply vsum_nonneg. intros p _. apply vsum_nonneg. intros k _. apply pow2_ge_0. }
  unfold loss. split.
  - rewrite mutual_misfit, !mirror_own by lia. unfold astray. rewrite vsum_two, 2 vsum_two. field.
  - assert (M : forall d p, d < 2 -> p < 2 -> d <> p -> meet 2 (mirror (1 / 3)) o d p = shared (1 / 3) lam (/ (2 * (1 / 3) * (1 - 1 / 3)))).
    { intros d p Ld Lp ND. apply mutual_shared; try assumption. destruct HL as [->| ->]; cbn [lm_noise lro_default]; lra. }
    rewrite mutual_misfit, !M by lia.
    assert (Y : (0 <= lam * astray 2 2 (mirror (1 / 3)) o)%R) by (apply Rmult_le_pos; [lra|apply AS]).
    assert (W : (0 < 1 * (1 - / (2 * (1 / 3) * (1 - 1 / 3)) * shared (1 / 3) lam (/ (2 * (1 / 3) * (1 - 1 / 3)))) ^ 2)%R); [|lra].
    destruct HL as [->| ->]; cbn [lm_noise lro_default].
    + replace (shared (1 / 3) 9 _) with (47 / 324)%R by (unfold shared; field). lra.
    + replace (shared (1 / 3) 1 _) with (163 / 468)%R by (unfold shared; field). lra.
Qed.

(** Without links, training fails. *)
Theorem C205_always_trains_refuted : exists K D links tops,
  topics_ok K D tops /\ no_self_links D links /\ inverts inv_two K /\ length links = D /\ 0 < D /\
  learn inv_two K D links (lro_default tt K) tops 1 None = Raise ValueError.
Proof.
  exists 2, 2, [[]; []], (mirror (1 / 3)).
  split; [apply mirror_ok; lra|]. split; [intros [|[|p]] L I; [| |lia]; destruct I|]. split; [exact inv_two_inverts|].
  split; [reflexivity|]. split; [lia|].
  apply C205_no_links_raises; [lia|cbn; lra|reflexivity|exact inv_two_inverts|].
  intros [|[|d]] p L I; [| |lia]; destruct I.
Qed.

(** ** Cases *)
Example C203_case : exists m' q', learn inv_two 2 2 mutual (lro_default tt 2) (mirror (1 / 3)) 1 None = Ok (m', q') /\
  lm_scale m' = (9 / 4)%R /\ no_self_links 2 mutual /\ best_scale (1 / 100) 1 2 2 (has_link mutual) (mirror (1 / 3)) (mirror (1 / 3)) (9 / 4).
Proof.
  destruct (mutual_one (1 / 3) 9 ltac:(lra) ltac:(lra) (1 / 100 * INR 2 * INR 2)) as [o [E X]].
  eexists. eexists. split; [exact E|]. cbn [lm_scale]. split; [lra|]. split; [exact mutual_self|].
  intros s' N. rewrite 2 mutual_misfit, !mirror_own by lia.
  assert (P : (1 - s' * (2 * (1 / 3) * (1 - 1 / 3)) <> 0)%R) by (intros P; lra).
  assert (Y := pow2_ge_0 (1 - s' * (2 * (1 / 3) * (1 - 1 / 3)))). assert (W := pow_nonzero _ 2 P). lra.
Qed.
Example C204_case : exists m' q', learn inv_two 2 2 mutual (lro_default tt 2) (mirror (1 / 3)) 1 None = Ok (m', q') /\
  topics_ok 2 2 (mirror (1 / 3)) /\ inverts inv_two 2 /\ lq_offs q' 0%nat 0%nat = (71 / 540)%R /\ lq_offs q' 0%nat 1%nat = (41 / 270)%R.
Proof.
  destruct (mutual_one (1 / 3) 9 ltac:(lra) ltac:(lra) (1 / 100 * INR 2 * INR 2)) as [o [E X]].
  eexists. eexists. split; [exact E|]. split; [apply mirror_ok; lra|]. split; [exact inv_two_inverts|]. cbn [lq_offs].
  rewrite !X, !mutual_offset by (try lia; lra). unfold mirror. cbn [Nat.eqb Nat.sub]. split; field.
Qed.
Example C205_case : exists m' q', learn inv_two 2 2 single (lro_default tt 2) (mirror (1 / 3)) 1 None = Ok (m', q') /\ (0 < lm_scale m')%R.
Proof.
  apply (C205_one_iteration (fun _ => true) (fun _ => 2) (fun _ => mirror (1 / 3)) (fun _ q => Ok q) (fun m q => Ok (m, q)) (fun q => q)
           inv_two 2 single (lro_default tt 2) (mkLQ (mirror (1 / 3)) (fun _ _ => 0%R)) None 0 1);
    cbn [lm_var0 lm_var1 lm_noise lm_scale lro_default lm_lda lq_lda]; try lra; try lia.
  - exact single_self.
  - exact inv_two_inverts.
  - apply mirror_ok; lra.
  - left. reflexivity.
  - exists 0. split; [lia|]. unfold mirror. cbn [Nat.eqb]. lra.
Qed.
Example C206_case : Permutation [1; 0] (seq 0 2) /\ topics_ok 2 2 (mirror (1 / 3)) /\
  (forall d k, d < 2 -> k < 2 -> mirror (1 - 1 / 3) d k = mirror (1 / 3) (nth d [1; 0] 0) k) /\
  (forall d p, d < 2 -> p < 2 -> In p (nth d [[]; [0]] []) <-> In (nth p [1; 0] 0) (nth (nth d [1; 0] 0) single [])).
Proof.
  split; [apply perm_swap|]. split; [apply mirror_ok; lra|]. split.
  - intros [|[|d]] [|[|k]] Ld Lk; try lia; unfold mirror; cbn [Nat.eqb nth]; ring.
  - intros [|[|d]] [|[|p]] Ld Lp; try lia; cbn; intuition lia.
Qed.

Print Assumptions C203_scale_is_best.
Print Assumptions C204_offsets_are.
Print Assumptions C204_unlinked_document_shrinks.
Print Assumptions C205_raises_value_error_only.
Print Assumptions C205_one_iteration.
Print Assumptions C205_no_links_raises.
Print Assumptions C206_order_of_documents.
Print Assumptions C206_query_keeps_model.
Print Assumptions C206_query_starts_afresh.
Print Assumptions C206_trained_topics_kept.
Print Assumptions C206_no_iterations.
Print Assumptions C203_scale_fits_offsets_refuted.
Print Assumptions C203_scale_positive_refuted.
Print Assumptions C203_variances_refuted.
Print Assumptions C204_offsets_best_refuted.
Print Assumptions C205_always_trains_refuted.
