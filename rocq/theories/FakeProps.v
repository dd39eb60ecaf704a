(** * Properties of the fake-online side topic model: C175-C181. *)
From Coq Require Import List Reals ZArith Arith Bool Lra Lia Permutation FunctionalExtensionality.
From Verif Require Import Base RealModel RealProofs VbModel VbProofs LinkModel CtmModel CtmProofs CtmProps StmModel StmProofs StmProps FakeModel FakeProofs.
Import ListNotations.
Open Scope nat_scope.

Notation vm M := (fun i j => val (M i j)).

(** What new model and query states hold: finite numbers, positive variances, and no
    negative weight of a word. *)
Definition sound_start (K D T F P : nat) (A Y RY V vocab means varcs : xmat) : Prop :=
  (forall k f, k < K -> f < F -> is_fin (A k f) = true) /\ (forall k p, k < K -> p < P -> is_fin (Y k p) = true) /\
  (forall p q, p < P -> q < P -> is_fin (RY p q) = true) /\ (forall p f, p < P -> f < F -> is_fin (V p f) = true) /\
  (forall d k, d < D -> k < K -> is_fin (means d k) = true) /\
  (forall k t, k < K -> t < T -> is_fin (vocab k t) = true /\ (0 <= val (vocab k t))%R) /\
  (forall d k, d < D -> k < K -> is_fin (varcs d k) = true /\ (0 < val (varcs d k))%R).
(** A corpus: the lengths are those of the documents. *)
Definition corpus (D T : nat) (W : mat) (docLens : list Z) : Prop :=
  length docLens = D /\ counts D T W (fun d => IZR (nth d docLens 0%Z)).
Definition argsorts (D : nat) (argsort : list Z -> list nat) : Prop := forall l, length l = D -> sorts l (argsort l).

Section sorting.
  Variables K D T F P B : nat.
  Variables beta fv lfv : R.
  Variable inv_of : nat -> mat -> mat.
  Variable argsort : list Z -> list nat.
  Variables W X : mat.
  Variable docLens : list Z.
  Hypothesis HS : argsorts D argsort.
  Hypothesis HC : corpus D T W docLens.
  Notation idx := (argsort docLens).
  Notation sorted := (map (fun i => nth i docLens 0%Z) (argsort docLens)).

  Lemma idx_perm : Permutation idx (seq 0 D).
  Proof. destruct HC as [HL _]. rewrite <- HL. apply (HS docLens HL). Qed.
  Lemma idx_lt i : i < D -> nth i idx 0 < D.
  Proof. apply perm_lt, idx_perm. Qed.
  Lemma idx_length : length idx = D.
  Proof. rewrite (Permutation_length idx_perm). apply seq_length. Qed.
  Lemma sorted_length : length sorted = D.
  Proof. rewrite map_length. apply idx_length. Qed.
  Lemma sorted_at i : i < D -> nth i sorted 0%Z = nth (nth i idx 0) docLens 0%Z.
  Proof. apply (sorted_nth D docLens idx); [apply HC|apply HS, HC]. Qed.
  Lemma sorted_up : rising sorted.
  Proof. apply (sorted_rising D (fun M => M) W docLens idx); [apply HC|apply HS, HC]. Qed.
  Lemma sorted_counts : counts D T (rows idx W) (fun d => IZR (nth d sorted 0%Z)).
  Proof.
    destruct HC as [_ [HW Hn]]. split.
    - intros d t Hd Ht. apply HW; [apply idx_lt; exact Hd|exact Ht].
    - intros d Hd. rewrite (sorted_at d Hd). apply Hn. apply idx_lt, Hd.
  Qed.
  Lemma back_sorts : sorts (map Z.of_nat idx) (argsort (map Z.of_nat idx)).
  Proof. apply HS. rewrite map_length. apply idx_length. Qed.
  Lemma back i : i < D -> nth (nth i idx 0) (argsort (map Z.of_nat idx)) 0 = i.
  Proof. apply (sorts_inverse' D idx); [apply idx_perm|apply back_sorts]. Qed.
  Lemma back_forth d : d < D -> nth (nth d (argsort (map Z.of_nat idx)) 0) idx 0 = d /\ nth d (argsort (map Z.of_nat idx)) 0 < D.
  Proof.
    intros Hd. destruct (sorts_inverse D idx (argsort (map Z.of_nat idx)) idx_perm back_sorts) as [HP H]. split; [apply H, Hd|apply perm_lt; assumption].
  Qed.

  Variables A Y RY V vocab means varcs : xmat.
  Hypothesis HST : sound_start K D T F P A Y RY V vocab means varcs.
  Definition train_start : fake :=
    {| f_A := A; f_Y := Y; f_RY := RY; f_V := V; f_sigT := fun _ _ => Fin 0; f_vocab := vocab; f_scale := fun _ _ => Fin 1;
       f_cov := fake_cov D (rows idx means) (fake_mu F (rows idx X) A); f_means := rows idx means; f_exp := fun _ _ => Fin 0; f_varcs := rows idx varcs |}.
  Lemma start_mu d k : k < K -> fake_mu F (rows idx X) A d k = Fin (vsum F (fun f => rows idx X d f * val (A k f)))%R.
  Proof. intros Hk. apply fsdot. intros f Hf. apply fmul; [reflexivity|]. apply fin_val, HST; assumption. Qed.
  Lemma start_cov i j : i < K -> j < K -> f_cov train_start i j =
    Fin (vsum D (fun d => (val (means (nth d idx 0%nat) i) - val (fake_mu F (rows idx X) A d i)) * (val (means (nth d idx 0%nat) j) - val (fake_mu F (rows idx X) A d j))))%R.
  Proof.
    intros Hi Hj. apply fsum. intros d Hd. destruct HST as [_ [_ [_ [_ [Hm _]]]]].
    apply fmul; (apply fsub; [apply fin_val, Hm; [apply idx_lt; exact Hd|assumption]|rewrite start_mu by assumption; reflexivity]).
  Qed.
  Lemma start_trainable : trainable K D T F P train_start.
  Proof.
    destruct HST as [HA [HY [HRY [HV [Hm [Hvo Hva]]]]]].
    split; [repeat split|split; [|split; [|split; [|split]]]]; cbn [train_start f_A f_Y f_RY f_V f_vocab f_scale f_means f_varcs]; try assumption.
    - intros k t Hk Ht. apply Hvo; assumption.
    - intros i j Hi Hj. rewrite start_cov by assumption. reflexivity.
    - intros d k Hd Hk. apply Hm; [apply idx_lt; exact Hd|exact Hk].
    - intros d k Hd Hk. apply Hva; [apply idx_lt; exact Hd|exact Hk].
    - intros d k Hd Hk. apply Hva; [apply idx_lt; exact Hd|exact Hk].
    - intros i j Hi Hj. rewrite !start_cov by assumption. cbn [val]. apply vsum_ext. intros; ring.
    - intros x. rewrite (quad_ext K _ (fun i j => vsum D (fun d => (fun k d => val (means (nth d idx 0%nat) k) - val (fake_mu F (rows idx X) A d k)) i d *
         (fun k d => val (means (nth d idx 0%nat) k) - val (fake_mu F (rows idx X) A d k)) j d))%R x x x x);
        [|intros i j Hi Hj; rewrite start_cov by assumption; reflexivity|reflexivity|reflexivity].
      rewrite (quad_gram K D (fun k d => val (means (nth d idx 0%nat) k) - val (fake_mu F (rows idx X) A d k))%R). apply vsum_nonneg. intros; apply Rle_0_sqr.
    - intros k t Hk Ht. apply Hvo; assumption.
    - intros k t Hk Ht. cbn [val]. lra.
  Qed.
  Lemma train_is perp logFrequency iterations : fake_train K D T F P B beta fv lfv inv_of argsort perp logFrequency iterations W X docLens A Y RY V vocab means varcs =
    if logFrequency =? 0 then Raise ZeroDivisionError else
    do r <- fake_loop K D T F P B beta fv lfv inv_of perp (rows idx W) (rows idx X) sorted (iterations / logFrequency) logFrequency 0 iterations 0 (Fin 0) train_start;
    if iterations =? 0 then Raise UnboundLocalError else
    let '(s, kept) := r in
    let revert := argsort (map Z.of_nat idx) in
    let size' := match kept with Some idx => idx | None => iterations / logFrequency end in
    Ok {| r_model := {| f_A := f_A s; f_Y := f_Y s; f_RY := f_RY s; f_V := f_V s; f_sigT := fun i j => f_sigT s i j ⊗ Fin (sig_scale D F P);
                        f_vocab := f_vocab s; f_scale := f_scale s; f_cov := f_cov s; f_means := f_means s; f_exp := f_exp s; f_varcs := f_varcs s |};
          rf_means := rows revert (f_means s); rf_varcs := rows revert (f_varcs s); rf_exp := f_exp s; rf_exp_rows := B;
          rf_lens := map (fun i => nth i sorted 0%Z) revert; rf_iters := size'; rf_values := size'; rf_likes := iterations / logFrequency |}.
  Proof. reflexivity. Qed.
End sorting.

(** ** The loop *)
Section loops.
  Variables K D T F P B : nat.
  Variables beta fv lfv : R.
  Variable inv_of : nat -> mat -> mat.
  Variable perp : fake -> xr.
  Variables W X : mat.
  Variable docLens : list Z.
  Notation iter := (fake_iter K D T F P B beta fv lfv inv_of W X docLens).
  Notation loop := (fake_loop K D T F P B beta fv lfv inv_of perp W X docLens).
  (** Whatever each iteration keeps, the loop keeps. *)
  Lemma loop_keeps (Q : fake -> Prop) size lf : (forall s s', Q s -> iter s = Ok s' -> Q s') ->
    forall todo itr idx last s s' o, Q s -> loop size lf itr todo idx last s = Ok (s', o) -> Q s'.
  Proof.
    intros H. induction todo as [|todo IH]; intros itr idx last s s' o Hs E; cbn [fake_loop] in E; [inversion E; subst; exact Hs|].
    destruct (iter s) as [s1|] eqn:E1; cbn [bind] in E; [|discriminate]. specialize (H s s1 Hs E1).
    destruct (itr mod lf =? 0); [|exact (IH _ _ _ _ _ _ H E)].
    destruct (size <=? idx); [discriminate|]. destruct (_ && _); [inversion E; subst; exact H|exact (IH _ _ _ _ _ _ H E)].
  Qed.
  Lemma loop_keeps_pos (Q Q' : fake -> Prop) size lf : (forall s s', Q s -> iter s = Ok s' -> Q s' /\ Q' s') ->
    forall todo itr idx last s s' o, Q s -> 0 < todo -> loop size lf itr todo idx last s = Ok (s', o) -> Q' s'.
  Proof.
    intros H todo itr idx last s s' o Hs Hp E. destruct todo as [|todo]; [lia|]. cbn [fake_loop] in E.
    destruct (iter s) as [s1|] eqn:E1; cbn [bind] in E; [|discriminate]. pose proof (H s s1 Hs E1) as H1.
    assert (N : forall itr idx last, loop size lf itr todo idx last s1 = Ok (s', o) -> Q' s').
    { intros i x l El. refine (proj2 (loop_keeps (fun s => Q s /\ Q' s) size lf _ todo i x l s1 s' o H1 El)). intros a b [Ha _] Eb. exact (H a b Ha Eb). }
    destruct (itr mod lf =? 0); [|exact (N _ _ _ E)].
    destruct (size <=? idx); [discriminate|]. destruct (_ && _); [inversion E; subst; apply H1|exact (N _ _ _ E)].
  Qed.
  (** Errors of the loop other than those of the iterations. *)
  Lemma loop_error size lf : forall todo itr idx last s e, loop size lf itr todo idx last s = Raise e ->
    e = IndexError \/ exists s', iter s' = Raise e.
  Proof.
    induction todo as [|todo IH]; intros itr idx last s e E; cbn [fake_loop] in E; [discriminate|].
    destruct (iter s) as [s1|e1] eqn:E1; cbn [bind] in E; [|inversion E; subst; right; exists s; exact E1].
    destruct (itr mod lf =? 0); [|exact (IH _ _ _ _ _ E)].
    destruct (size <=? idx); [left; congruence|]. destruct (_ && _); [discriminate|exact (IH _ _ _ _ _ E)].
  Qed.
  (** Before the iteration numbered [itr], [idx] measurements have been made. *)
  Definition measured (lf itr : nat) : nat := (itr + lf - 1) / lf.
  Lemma measured_next lf itr : 0 < lf -> measured lf (S itr) = if itr mod lf =? 0 then S (measured lf itr) else measured lf itr.
  Proof.
    intros H. unfold measured. pose proof (Nat.div_mod itr lf ltac:(lia)) as E. pose proof (Nat.mod_upper_bound itr lf ltac:(lia)) as U.
    destruct (Nat.eqb_spec (itr mod lf) 0) as [Z|Z].
    - transitivity (S (itr / lf)); [symmetry; apply Nat.div_unique with (r := 0); nia|]. f_equal. apply Nat.div_unique with (r := lf - 1); nia.
    - transitivity (S (itr / lf)); [symmetry; apply Nat.div_unique with (r := itr mod lf); nia|]. apply Nat.div_unique with (r := itr mod lf - 1); nia.
  Qed.
  Lemma measured_whole lf c : 0 < lf -> measured lf (c * lf) = c.
  Proof. intros H. unfold measured. symmetry. apply Nat.div_unique with (r := lf - 1); nia. Qed.
  Lemma measured_mono lf a b : 0 < lf -> a <= b -> measured lf a <= measured lf b.
  Proof. intros H Hab. unfold measured. apply Nat.div_le_mono; lia. Qed.
  (** If every iteration succeeds, the loop does, provided the number of iterations is a multiple of
      that between measurements. *)
  Lemma loop_succeeds (Q : fake -> Prop) lf c : 0 < lf -> (forall s, Q s -> exists s', iter s = Ok s' /\ Q s') ->
    forall todo itr last s, Q s -> itr + todo = c * lf -> exists s' o, loop c lf itr todo (measured lf itr) last s = Ok (s', o).
  Proof.
    intros Hlf H. induction todo as [|todo IH]; intros itr last s Hs Ht; cbn [fake_loop]; [eexists _, _; reflexivity|].
    destruct (H s Hs) as [s1 [E1 Hs1]]. rewrite E1. cbn [bind]. pose proof (measured_next lf itr Hlf) as N.
    destruct (itr mod lf =? 0).
    - destruct (Nat.leb_spec c (measured lf itr)) as [L|L].
      + exfalso. pose proof (measured_mono lf (S itr) (c * lf) Hlf ltac:(lia)) as M. rewrite measured_whole in M by exact Hlf. lia.
      + destruct (_ && _); [eexists _, _; reflexivity|]. rewrite <- N. apply IH; [exact Hs1|lia].
    - rewrite <- N. apply IH; [exact Hs1|lia].
  Qed.
  (** Otherwise it fails unless it stops early, which it does not in the first 21 iterations. *)
  Lemma loop_overruns (Q : fake -> Prop) lf c : 0 < lf -> (forall s, Q s -> exists s', iter s = Ok s' /\ Q s') ->
    forall todo itr last s, Q s -> c * lf < itr + todo <= 21 -> itr <= c * lf -> loop c lf itr todo (measured lf itr) last s = Raise IndexError.
  Proof.
    intros Hlf H. induction todo as [|todo IH]; intros itr last s Hs Ht Hi; [lia|]. cbn [fake_loop].
    destruct (H s Hs) as [s1 [E1 Hs1]]. rewrite E1. cbn [bind]. pose proof (measured_next lf itr Hlf) as N.
    destruct (Nat.eqb_spec (itr mod lf) 0) as [Z|Z].
    - destruct (Nat.leb_spec c (measured lf itr)) as [L|L]; [reflexivity|].
      replace (20 <? itr) with false by (symmetry; apply Nat.ltb_ge; lia). rewrite andb_false_r. cbn [andb]. rewrite <- N. apply IH; [exact Hs1|lia|].
      destruct (Nat.eq_dec itr (c * lf)) as [->|]; [rewrite measured_whole in L by exact Hlf; lia|lia].
    - rewrite <- N. apply IH; [exact Hs1|lia|]. destruct (Nat.eq_dec itr (c * lf)) as [->|]; [|lia]. rewrite Nat.mod_mul in Z by lia. lia.
  Qed.
End loops.

(** ** C175: training gives finite topics *)
(** All documents have one length. *)
Lemma sorted_repeat D T W docLens argsort len : argsorts D argsort -> corpus D T W docLens -> (forall d, d < D -> nth d docLens 0%Z = len) ->
  map (fun i => nth i docLens 0%Z) (argsort docLens) = repeat len D.
Proof.
  intros HS HC H. apply (nth_ext _ _ 0%Z 0%Z); [rewrite repeat_length; exact (sorted_length D T argsort W docLens HS HC)|].
  intros i Hi. rewrite (sorted_length D T argsort W docLens HS HC) in Hi. rewrite (sorted_at D T argsort W docLens HS HC i Hi).
  rewrite H by (apply (idx_lt D T argsort W docLens HS HC), Hi). symmetry. rewrite (nth_indep _ 0%Z len) by (rewrite repeat_length; exact Hi). apply nth_repeat.
Qed.

Theorem C175_one_length K D T F P B beta fv lfv inv_of argsort perp lf c W X docLens len A Y RY V vocab means varcs :
  0 < K -> 0 < T -> 0 < D <= B -> (0 < beta)%R -> (0 < fv)%R -> (0 < lfv)%R -> inverts K (inv_of K) -> argsorts D argsort ->
  corpus D T W docLens -> sound_start K D T F P A Y RY V vocab means varcs -> 0 < lf -> 0 < c ->
  (forall d, d < D -> nth d docLens 0%Z = len) ->
  exists o, fake_train K D T F P B beta fv lfv inv_of argsort perp lf (c * lf) W X docLens A Y RY V vocab means varcs = Ok o /\
  rf_lens o = docLens /\
  (forall d k, d < D -> k < K -> is_fin (rf_means o d k) = true /\ is_fin (rf_varcs o d k) = true /\ (0 < val (rf_varcs o d k))%R) /\
  (forall k f, k < K -> f < F -> is_fin (f_A (r_model o) k f) = true) /\ (forall k p, k < K -> p < P -> is_fin (f_Y (r_model o) k p) = true) /\
  (forall p f, p < P -> f < F -> is_fin (f_V (r_model o) p f) = true) /\
  (forall i j, i < K -> j < K -> is_fin (f_sigT (r_model o) i j) = true) /\
  (forall k, k < K -> (forall t, t < T -> is_fin (f_vocab (r_model o) k t) = true) /\ positive_dist T (fun t => val (f_vocab (r_model o) k t))).
Proof.
  intros HK HT [HD HB] Hb Hfv Hlfv HI HS HC HST Hlf Hc Hlen. rewrite (train_is K D T F P B beta fv lfv inv_of argsort W X docLens A Y RY V vocab means varcs).
  destruct (Nat.eqb_spec lf 0); [lia|]. rewrite Nat.div_mul by lia.
  pose proof (sorted_counts D T argsort W docLens HS HC) as HCs. rewrite (sorted_repeat D T W docLens argsort len HS HC Hlen) in HCs |- *.
  set (idx := argsort docLens) in *. set (s0 := train_start D F argsort X docLens A Y RY V vocab means varcs).
  assert (H0 : trainable K D T F P s0) by (apply (start_trainable K D T F P argsort W X docLens HS HC A Y RY V vocab means varcs HST)).
  set (done := fun s' => trainable K D T F P s' /\ (forall i j, i < K -> j < K -> is_fin (f_sigT s' i j) = true) /\
                         forall k, k < K -> positive_dist T (fun t => val (f_vocab s' k t))).
  assert (Step : forall s, trainable K D T F P s -> exists s', fake_iter K D T F P B beta fv lfv inv_of (rows idx W) (rows idx X) (repeat len D) s = Ok s' /\ done s').
  { intros s Hs. destruct (iter_real K D T F P B beta fv lfv inv_of (rows idx W) (rows idx X) len HK HT HD HB Hb Hfv Hlfv HI HCs s Hs) as [s' [E R]].
    destruct R as [Rtr Rsig Rvoc _ _ _]. exists s'. split; [exact E|]. split; [exact Rtr|]. split; [intros i j Hi Hj; rewrite (Rsig i j Hi Hj); reflexivity|].
    intros k Hk. destruct (vocab_real K D T F P beta HT Hb s Hs) as [_ Q]. destruct (Q k Hk) as [Q1 Q2].
    split; [intros t Ht; rewrite (Rvoc k t Hk Ht); apply Q1, Ht|].
    rewrite <- Q2. apply vsum_ext. intros t Ht. rewrite (Rvoc k t Hk Ht). reflexivity. }
  destruct (loop_succeeds K D T F P B beta fv lfv inv_of perp (rows idx W) (rows idx X) (repeat len D) (trainable K D T F P) lf c Hlf) with (todo := c * lf) (itr := 0) (last := Fin 0) (s := s0)
    as [s1 [o E]]; [|exact H0|lia|].
  { intros s Hs. destruct (Step s Hs) as [s' [E [H _]]]. exists s'. split; assumption. }
  change (measured lf 0) with ((lf - 1) / lf) in E. rewrite (Nat.div_small (lf - 1) lf) in E by lia. rewrite E. cbn [bind].
  destruct (Nat.eqb_spec (c * lf) 0); [nia|].
  assert (Hd : done s1).
  { refine (loop_keeps_pos K D T F P B beta fv lfv inv_of perp (rows idx W) (rows idx X) (repeat len D) (trainable K D T F P) done c lf _ (c * lf) 0 0 (Fin 0) s0 s1 o H0 ltac:(nia) E).
    intros s s' Hs Es. destruct (Step s Hs) as [s2 [E2 H2]]. rewrite E2 in Es. inversion Es; subst. split; [apply H2|exact H2]. }
  destruct Hd as [[[HA [HY [_ [HV [Hvo [_ [_ [Hm Hva]]]]]]]] [Hvp _]] [Hsg Hvd]].
  cbv zeta. eexists. split; [reflexivity|]. cbn [rf_lens rf_means rf_varcs r_model f_A f_Y f_V f_sigT f_vocab].
  split.
  { destruct HC as [HL HC']. destruct (sorts_inverse D idx (argsort (map Z.of_nat idx)) (idx_perm D T argsort W docLens HS (conj HL HC')) (back_sorts D T argsort W docLens HS (conj HL HC'))) as [HPb _].
    assert (Lb : length (argsort (map Z.of_nat idx)) = D) by (rewrite (Permutation_length HPb); apply seq_length).
    apply (nth_ext _ _ 0%Z 0%Z); [rewrite map_length; lia|]. intros i Hi. rewrite map_length, Lb in Hi.
    rewrite (nth_indep _ 0%Z (nth 0 (repeat len D) 0%Z)) by (rewrite map_length; lia).
    rewrite (map_nth (fun i => nth i (repeat len D) 0%Z) _ 0 i), Hlen by exact Hi.
    rewrite (nth_indep _ 0%Z len) by (rewrite repeat_length; apply perm_lt; assumption). apply nth_repeat. }
  split.
  { intros d k Hdd Hk. destruct (back_forth D T argsort W docLens HS HC d Hdd) as [_ Hb']. fold idx in Hb'. unfold rows. split; [apply Hm; assumption|]. split; [apply Hva; assumption|apply Hvp; assumption]. }
  split; [exact HA|]. split; [exact HY|]. split; [exact HV|]. split; [intros i j Hi Hj; apply is_mul; [apply Hsg; assumption|reflexivity]|].
  intros k Hk. split; [intros t Ht; apply Hvo; assumption|apply Hvd, Hk].
Qed.

(** The longest document, after sorting. *)
Lemma longest_last D T W docLens argsort a b : argsorts D argsort -> corpus D T W docLens -> a < D -> b < D ->
  nth a docLens 0%Z <> nth b docLens 0%Z -> let sorted := map (fun i => nth i docLens 0%Z) (argsort docLens) in
  (nth 0 sorted 0 < nth (D - 1) sorted 0)%Z /\ forall e, e < D -> (nth e docLens 0 <= nth (D - 1) sorted 0)%Z.
Proof.
  intros HS HC Ha Hb Hab sorted.
  assert (L : length sorted = D) by exact (sorted_length D T argsort W docLens HS HC).
  assert (Hat : forall e, e < D -> exists i, i < D /\ nth i sorted 0%Z = nth e docLens 0%Z).
  { intros e He. destruct (back_forth D T argsort W docLens HS HC e He) as [E H]. eexists. split; [exact H|].
    unfold sorted. rewrite (sorted_at D T argsort W docLens HS HC _ H), E. reflexivity. }
  assert (Up : forall i j, i <= j -> j < D -> (nth i sorted 0 <= nth j sorted 0)%Z).
  { intros i j Hij Hj. destruct (Nat.eq_dec i j) as [->|]; [lia|]. apply (sorted_up D T argsort W docLens HS HC); [lia|]. fold sorted. lia. }
  split; [|intros e He; destruct (Hat e He) as [i [Hi <-]]; apply Up; lia].
  destruct (Hat a Ha) as [i [Hi Ei]], (Hat b Hb) as [j [Hj Ej]].
  pose proof (Up 0 i ltac:(lia) Hi). pose proof (Up 0 j ltac:(lia) Hj). pose proof (Up i (D - 1) ltac:(lia) ltac:(lia)). pose proof (Up j (D - 1) ltac:(lia) ltac:(lia)). lia.
Qed.

(** With two different lengths the longest document gets topics that are not numbers. *)
Theorem C175_longest_document_lost K D T F P B beta fv lfv inv_of argsort perp W X docLens A Y RY V vocab means varcs a b :
  0 < K -> D <= B -> argsorts D argsort -> corpus D T W docLens -> sound_start K D T F P A Y RY V vocab means varcs ->
  a < D -> b < D -> nth a docLens 0%Z <> nth b docLens 0%Z ->
  exists o d, fake_train K D T F P B beta fv lfv inv_of argsort perp 1 1 W X docLens A Y RY V vocab means varcs = Ok o /\
  d < D /\ (forall e, e < D -> (nth e docLens 0 <= nth d docLens 0)%Z) /\ forall k, k < K -> is_fin (rf_means o d k) = false.
Proof.
  intros HK HB HS HC HST Ha Hb Hab. rewrite (train_is K D T F P B beta fv lfv inv_of argsort W X docLens A Y RY V vocab means varcs).
  destruct (longest_last D T W docLens argsort a b HS HC Ha Hb Hab) as [Hlt Hmax].
  pose proof (sorted_at D T argsort W docLens HS HC (D - 1) ltac:(lia)) as Elast.
  pose proof (sorted_counts D T argsort W docLens HS HC) as HCs. pose proof (sorted_up D T argsort W docLens HS HC) as HU.
  pose proof (sorted_length D T argsort W docLens HS HC) as HL.
  set (idx := argsort docLens) in *. set (sorted := map (fun i => nth i docLens 0%Z) idx) in *.
  set (s0 := train_start D F argsort X docLens A Y RY V vocab means varcs).
  assert (H0 : trainable K D T F P s0) by (apply (start_trainable K D T F P argsort W X docLens HS HC A Y RY V vocab means varcs HST)).
  destruct (iter_finishes K D T F P B beta fv lfv inv_of (rows idx W) (rows idx X) sorted HK HL s0 (proj1 H0) HB) as [s1 E1].
  destruct (iter_lost K D T F P B beta fv lfv inv_of (rows idx W) (rows idx X) sorted HK HL HU HCs s0 s1 HB Hlt (fun _ _ => eq_refl) E1) as [Hlost _].
  cbn [Nat.eqb]. change (1 / 1) with 1. cbn [fake_loop]. rewrite E1. cbn [bind]. change (0 mod 1 =? 0) with true. cbn [Nat.leb Nat.ltb andb bind Nat.eqb]. cbv zeta.
  eexists _, (nth (D - 1) idx 0). split; [reflexivity|]. split; [apply (idx_lt D T argsort W docLens HS HC); lia|].
  split; [intros e He; rewrite <- Elast; apply Hmax, He|]. intros k Hk. cbn [rf_means]. unfold rows.
  pose proof (back D T argsort W docLens HS HC (D - 1) ltac:(lia)) as Bk. fold idx in Bk. rewrite Bk. apply Hlost, Hk.
Qed.
(** More iterations fail. *)
Theorem C175_more_iterations_fail K D T F P B beta fv lfv inv_of argsort perp lf iterations W X docLens A Y RY V vocab means varcs a b :
  0 < K -> D <= B -> argsorts D argsort -> corpus D T W docLens -> sound_start K D T F P A Y RY V vocab means varcs ->
  a < D -> b < D -> nth a docLens 0%Z <> nth b docLens 0%Z -> 0 < lf <= iterations -> 1 < iterations ->
  fake_train K D T F P B beta fv lfv inv_of argsort perp lf iterations W X docLens A Y RY V vocab means varcs = Raise ValueError.
Proof.
  intros HK HB HS HC HST Ha Hb Hab Hlf Hit. rewrite (train_is K D T F P B beta fv lfv inv_of argsort W X docLens A Y RY V vocab means varcs).
  destruct (longest_last D T W docLens argsort a b HS HC Ha Hb Hab) as [Hlt Hmax].
  pose proof (sorted_counts D T argsort W docLens HS HC) as HCs. pose proof (sorted_up D T argsort W docLens HS HC) as HU.
  pose proof (sorted_length D T argsort W docLens HS HC) as HL.
  set (idx := argsort docLens) in *. set (sorted := map (fun i => nth i docLens 0%Z) idx) in *.
  set (s0 := train_start D F argsort X docLens A Y RY V vocab means varcs).
  assert (H0 : trainable K D T F P s0) by (apply (start_trainable K D T F P argsort W X docLens HS HC A Y RY V vocab means varcs HST)).
  destruct (iter_finishes K D T F P B beta fv lfv inv_of (rows idx W) (rows idx X) sorted HK HL s0 (proj1 H0) HB) as [s1 E1].
  destruct (iter_lost K D T F P B beta fv lfv inv_of (rows idx W) (rows idx X) sorted HK HL HU HCs s0 s1 HB Hlt (fun _ _ => eq_refl) E1) as [_ Hlost].
  pose proof (iter_refuses K D T F P B beta fv lfv inv_of (rows idx W) (rows idx X) sorted HK s1 (Hlost 0 HK)) as E2.
  destruct (Nat.eqb_spec lf 0); [lia|]. destruct iterations as [|[|iterations]]; [lia|lia|]. cbn [fake_loop]. rewrite E1. cbn [bind].
  rewrite (Nat.mod_0_l lf ltac:(lia)). cbn [Nat.eqb].
  destruct (Nat.leb_spec (S (S iterations) / lf) 0) as [L|L].
  - pose proof (Nat.div_str_pos (S (S iterations)) lf ltac:(lia)). lia.
  - cbn [Nat.ltb Nat.leb andb]. rewrite E2. reflexivity.
Qed.

(** ** C176: no weights are read outside the buffer *)
Lemma iter_in_bounds K D T F P B beta fv lfv inv_of W X docLens s : length docLens = D -> D <= B ->
  fake_iter K D T F P B beta fv lfv inv_of W X docLens s <> Raise MemoryOOB.
Proof.
  intros HL HB H. unfold fake_iter in H.
  destruct (xinv inv_of K (fake_sigT D F P fv lfv s)) as [isigT|] eqn:E1; cbn [bind] in H; [|inversion H; subst; pose proof (xinv_raise _ _ _ _ E1); discriminate].
  destruct (xinv inv_of P (fake_lV K D F P isigT s)) as [iV|] eqn:E2; cbn [bind] in H; [|inversion H; subst; pose proof (xinv_raise _ _ _ _ E2); discriminate].
  destruct (xinv inv_of P _) as [RY|] eqn:E3 in H; cbn [bind] in H; [|inversion H; subst; pose proof (xinv_raise _ _ _ _ E3); discriminate].
  apply xinv_ok in E1. destruct E1 as [-> _].
  match type of H with context [bind ?g _] => assert (G : exists v, g = Ok v) end; [|destruct G as [v G]; rewrite G in H; discriminate].
  apply groups_in_bounds. intros i Hi. apply in_app_or in Hi. destruct Hi as [Hi|[<-|[]]]; [|exact HB]. apply in_map_iff in Hi. destruct Hi as [x [<- Hx]].
  apply (proj1 (unique_in docLens x)) in Hx. apply first_index_lt in Hx. lia.
Qed.
Theorem C176_within_the_buffer K D T F P B beta fv lfv inv_of argsort perp lf iterations W X docLens A Y RY V vocab means varcs :
  length docLens = D -> argsorts D argsort -> D <= B ->
  fake_train K D T F P B beta fv lfv inv_of argsort perp lf iterations W X docLens A Y RY V vocab means varcs <> Raise MemoryOOB.
Proof.
  intros HL HS HB H. rewrite (train_is K D T F P B beta fv lfv inv_of argsort W X docLens A Y RY V vocab means varcs) in H.
  destruct (lf =? 0); [discriminate|]. destruct (fake_loop _ _ _ _ _ _ _ _ _ _ _ _ _ _ _ _ _ _ _ _ _) as [[s o]|e] eqn:E in H; cbn [bind] in H.
  - destruct (iterations =? 0); discriminate.
  - injection H as ->. destruct (loop_error K D T F P B beta fv lfv inv_of perp _ _ _ _ _ _ _ _ _ _ _ E) as [Q|[s Q]]; [discriminate|].
    refine (iter_in_bounds K D T F P B beta fv lfv inv_of _ _ _ s _ HB Q). rewrite map_length. destruct (HS docLens HL) as [HP _]. rewrite (Permutation_length HP), seq_length. exact HL.
Qed.
(** For every larger corpus something outside is read. *)
Theorem C176_larger_corpora_read_outside K D T F P B beta fv lfv inv_of argsort perp lf iterations W X docLens A Y RY V vocab means varcs d :
  0 < K -> 0 < B < D -> argsorts D argsort -> corpus D T W docLens -> sound_start K D T F P A Y RY V vocab means varcs ->
  d < D -> (0 < nth d docLens 0)%Z -> 0 < lf -> 0 < iterations ->
  fake_train K D T F P B beta fv lfv inv_of argsort perp lf iterations W X docLens A Y RY V vocab means varcs = Raise MemoryOOB.
Proof.
  intros HK HB HS HC HST Hd Hpos Hlf Hit. rewrite (train_is K D T F P B beta fv lfv inv_of argsort W X docLens A Y RY V vocab means varcs).
  pose proof (sorted_counts D T argsort W docLens HS HC) as HCs. pose proof (sorted_up D T argsort W docLens HS HC) as HU.
  pose proof (sorted_length D T argsort W docLens HS HC) as HL.
  assert (Hlast : (0 < nth (D - 1) (map (fun i => nth i docLens 0%Z) (argsort docLens)) 0)%Z).
  { destruct (back_forth D T argsort W docLens HS HC d Hd) as [E H]. pose proof (sorted_at D T argsort W docLens HS HC _ H) as Q. rewrite E in Q.
    set (i := nth d (argsort (map Z.of_nat (argsort docLens))) 0) in *. destruct (Nat.eq_dec i (D - 1)) as [<-|N]; [lia|].
    pose proof (HU i (D - 1) ltac:(lia) ltac:(lia)). lia. }
  set (idx := argsort docLens) in *. set (sorted := map (fun i => nth i docLens 0%Z) idx) in *.
  set (s0 := train_start D F argsort X docLens A Y RY V vocab means varcs).
  assert (H0 : trainable K D T F P s0) by (apply (start_trainable K D T F P argsort W X docLens HS HC A Y RY V vocab means varcs HST)).
  pose proof (iter_reads_outside K D T F P B beta fv lfv inv_of (rows idx W) (rows idx X) sorted HK HL HU HCs s0 (proj1 H0) HB Hlast) as E.
  destruct (Nat.eqb_spec lf 0); [lia|]. destruct iterations as [|iterations]; [lia|]. cbn [fake_loop]. rewrite E. reflexivity.
Qed.

(** ** C177: each iteration raises every document's posterior probability *)
Section improve.
  Variables K D T F P B : nat.
  Variables beta fv lfv : R.
  Variable inv_of : nat -> mat -> mat.
  Variables W X : mat.
  Variable len : Z.
  Hypothesis HK : 0 < K.
  Hypothesis HT : 0 < T.
  Hypothesis HD : 0 < D.
  Hypothesis HB : D <= B.
  Hypothesis Hb : (0 < beta)%R.
  Hypothesis Hfv : (0 < fv)%R.
  Hypothesis Hlfv : (0 < lfv)%R.
  Hypothesis HI : inverts K (inv_of K).
  Hypothesis HC : counts D T W (fun d => IZR (nth d (repeat len D) 0%Z)).
  Notation iter := (fake_iter K D T F P B beta fv lfv inv_of W X (repeat len D)).

  Lemma iter_is_real s s' : trainable K D T F P s -> iter s = Ok s' -> real_iter K D T F P beta fv lfv inv_of W X len s s'.
  Proof.
    intros Hs E. destruct (iter_real K D T F P B beta fv lfv inv_of W X len HK HT HD HB Hb Hfv Hlfv HI HC s Hs) as [s1 [E1 R]].
    rewrite E1 in E. inversion E; subst. exact R.
  Qed.
  Lemma new_vocab s s' : trainable K D T F P s -> iter s = Ok s' -> forall k, k < K -> positive_dist T (vm (f_vocab s') k).
  Proof.
    intros Hs E k Hk. destruct (iter_is_real s s' Hs E) as [_ _ Rvoc _ _ _]. destruct (vocab_real K D T F P beta HT Hb s Hs) as [_ Q]. destruct (Q k Hk) as [Q1 Q2].
    split; [intros t Ht; rewrite (Rvoc k t Hk Ht); apply Q1, Ht|].
    rewrite <- Q2. apply vsum_ext. intros t Ht. rewrite (Rvoc k t Hk Ht). reflexivity.
  Qed.

  Theorem C177_topics_improve s s' d : trainable K D T F P s -> iter s = Ok s' -> d < D ->
    let mu := fun k => vsum F (fun f => X d f * val (f_A s' k f))%R in
    let precision := fun i j => (isig_scale D F P * inv_of K (vm (f_sigT s')) i j)%R in
    trainable K D T F P s' /\ posdef K precision /\
    (log_posterior K T (vm (f_vocab s')) mu precision (W d) (vm (f_means s) d)
     <= log_posterior K T (vm (f_vocab s')) mu precision (W d) (vm (f_means s') d))%R.
  Proof.
    intros Hs E Hd mu precision. pose proof (new_vocab s s' Hs E) as Hvoc. destruct (iter_is_real s s' Hs E) as [Rtr Rsig _ Rm _ _].
    split; [exact Rtr|]. assert (Hcov : covers K T (vm (f_vocab s'))) by (apply positive_covers; assumption).
    destruct HC as [HW Hn].
    assert (HsR : forall i j, i < K -> j < K -> vm (f_sigT s') i j = real_sigT D F P fv lfv s i j) by (intros i j Hi Hj; cbv beta; rewrite (Rsig i j Hi Hj); reflexivity).
    assert (HMs : symm K (vm (f_sigT s'))) by (intros i j Hi Hj; rewrite !HsR by assumption; apply (real_sigT_symm K D T F P fv lfv); assumption).
    assert (HM : posdef K (vm (f_sigT s'))).
    { intros x Hx. rewrite (quad_ext K (vm (f_sigT s')) (real_sigT D F P fv lfv s) x x x x) by (try exact HsR; reflexivity). apply (real_sigT_posdef K D T F P fv lfv); assumption. }
    destruct (HI _ HMs HM) as [R1 L1]. set (isigT := inv_of K (vm (f_sigT s'))) in *.
    pose proof (inverse_posdef K _ _ HM R1 L1) as HP. pose proof (inverse_symm K _ _ HMs R1 L1) as HS.
    assert (Hsc : (0 < sig_scale D F P)%R). { unfold sig_scale. apply Rdiv_lt_0_compat; [lra|]. pose proof (pos_INR P). pose proof (pos_INR F). pose proof (lt_INR 0 D HD) as HD'. cbn [INR] in HD'. lra. }
    assert (Hisc : (0 < isig_scale D F P)%R) by (apply Rdiv_lt_0_compat; lra).
    assert (Hp : posdef K precision). { intros x Hx. unfold precision. fold isigT. rewrite quad_scale. apply Rmult_lt_0_compat; [exact Hisc|apply HP; exact Hx]. }
    split; [exact Hp|].
    apply (posterior_grows K T (vm (f_vocab s')) (W d) mu (vm (f_means s) d) precision HK Hcov (fun t Ht => HW d t Hd Ht));
      [intros i j Hi Hj; unfold precision; fold isigT; rewrite (HS i j Hi Hj); reflexivity|apply posdef_psd; exact Hp|].
    assert (En : nth d (repeat len D) 0%Z = len) by (rewrite (nth_indep _ 0%Z len) by (rewrite repeat_length; exact Hd); apply nth_repeat).
    set (N := IZR len). set (M := fun i j => (isigT i j + sig_scale D F P * N * bohning K i j)%R).
    assert (EN : N = vsum T (W d)) by (rewrite <- (Hn d Hd), En; reflexivity).
    assert (HN : (0 <= N)%R) by (rewrite EN; apply vsum_nonneg; intros; apply HW; assumption).
    assert (MS : symm K M). { intros i j Hi Hj. unfold M. rewrite (HS i j Hi Hj), (bohning_symm K i j Hi Hj). reflexivity. }
    assert (MP : posdef K M) by (apply posdef_add; [exact HP|apply bohning_psd; exact HK|apply Rmult_le_pos; lra]).
    destruct (HI M MS MP) as [R2 L2]. set (inv := inv_of K) in *.
    set (r := stm_rhs K D F P X (vm (f_A s')) isigT (token_weights K T W (exp_means K (vm (f_means s))) (vm (f_vocab s'))) (fun d => IZR (nth d (repeat len D) 0%Z)) (vm (f_means s))).
    assert (EM : forall k, k < K -> val (f_means s' d k) = vsum K (fun j => r d j * (inv M j k * sig_scale D F P))%R).
    { intros k Hk. rewrite (Rm d k Hd Hk). reflexivity. }
    intros k Hk. rewrite <- EN.
    rewrite (vsum_ext K _ (fun l => vsum K (fun j => (inv M j l * M l k) * r d j))%R).
    2:{ intros l Hl. rewrite (EM l Hl), <- vsum_scale. apply vsum_ext. intros j Hj. rewrite (MS l k Hl Hk). change (M k l) with (isigT k l + sig_scale D F P * N * bohning K k l)%R. unfold precision. fold isigT. generalize (inv M j l). intros q.
        unfold isig_scale. field. lra. }
    rewrite (vsum_swap K K (fun l j => inv M j l * M l k * r d j)%R).
    rewrite (vsum_ext K _ (fun j => eye k j * r d j)%R).
    2:{ intros j Hj. rewrite vsum_scale_r, (L2 j k Hj Hk). unfold eye. rewrite (Nat.eqb_sym j k). reflexivity. }
    rewrite vsum_eye by exact Hk. unfold r, stm_rhs. rewrite En. fold N.
    rewrite (token_weights_expected K T W (vm (f_means s)) (vm (f_vocab s')) d k Hcov). rewrite (vsoftmax_is K HK).
    replace (vsum K (fun j => vsum F (fun f => X d f * val (f_A s' j f)) * isigT j k) * isig_scale D F P)%R
      with (vsum K (fun j => precision k j * mu j))%R; [ring|].
    rewrite <- vsum_scale_r. apply vsum_ext. intros j Hj. unfold precision, mu. fold isigT. rewrite (HS j k Hj Hk). ring.
  Qed.

  (** ** C178: the vocabulary of the second and later iterations fits the documents better *)
  Lemma log_like_ext v v' w m : (forall k t, k < K -> t < T -> v k t = v' k t) -> log_like K T v w m = log_like K T v' w m.
  Proof. intros H. apply vsum_ext. intros t Ht. f_equal. f_equal. apply vsum_ext. intros k Hk. rewrite (H k t Hk Ht). reflexivity. Qed.
  Lemma next_vocab s s1 s2 : trainable K D T F P s -> iter s = Ok s1 -> iter s1 = Ok s2 -> forall k t, k < K -> t < T ->
    f_vocab s2 k t = Fin (vocab_update K D T W beta (exp_means K (vm (f_means s1))) (vm (f_vocab s1)) k t).
  Proof.
    intros Hs E1 E2 k t Hk Ht. destruct (iter_is_real s s1 Hs E1) as [Rtr _ _ _ _ Rsc]. destruct (iter_is_real s1 s2 Rtr E2) as [_ _ Rvoc _ _ _].
    rewrite (Rvoc k t Hk Ht). f_equal. unfold real_vocab, vocab_update, norm_rows, vocab_counts. f_equal; [rewrite Rsc by assumption; reflexivity|apply vsum_ext; intros u Hu; rewrite Rsc by assumption; reflexivity].
  Qed.
  (** The penalised likelihood of the words. *)
  Definition fit (v M : mat) : R := (vsum D (fun d => log_like K T v (W d) (M d)) + beta * vsum K (fun k => vsum T (fun t => ln (v k t))))%R.
  Theorem C178_later_vocabularies_improve s s1 s2 : trainable K D T F P s -> iter s = Ok s1 -> iter s1 = Ok s2 ->
    (fit (vm (f_vocab s1)) (vm (f_means s1)) <= fit (vm (f_vocab s2)) (vm (f_means s1)))%R.
  Proof.
    intros Hs E1 E2. pose proof (new_vocab s s1 Hs E1) as Hv. pose proof (next_vocab s s1 s2 Hs E1 E2) as N. destruct HC as [HW _].
    pose proof (vocab_step K D T W HK HW (vm (f_means s1)) (vm (f_vocab s1)) beta Hb HT (fun k t Hk => proj1 (Hv k Hk) t) (fun k Hk => proj2 (Hv k Hk))) as Q.
    cbv zeta in Q. unfold fit. eapply Rle_trans; [exact Q|]. right. f_equal.
    - apply vsum_ext. intros d Hd. apply log_like_ext. intros k t Hk Ht. rewrite (N k t Hk Ht). reflexivity.
    - f_equal. apply vsum_ext. intros k Hk. apply vsum_ext. intros t Ht. rewrite (N k t Hk Ht). reflexivity.
  Qed.
End improve.
(** After the first iteration it is the smoothed vocabulary of the start, whatever the words. *)
Theorem C178_first_vocabulary K D T F P B beta fv lfv inv_of argsort perp W X docLens A Y RY V vocab means varcs o :
  0 < T -> (0 < beta)%R -> sound_start K D T F P A Y RY V vocab means varcs ->
  fake_train K D T F P B beta fv lfv inv_of argsort perp 1 1 W X docLens A Y RY V vocab means varcs = Ok o ->
  forall k t, k < K -> t < T ->
  f_vocab (r_model o) k t = Fin ((val (vocab k t) + beta) / (vsum T (fun u => val (vocab k u)) + INR T * beta)).
Proof.
  intros HT Hb HST E k t Hk Ht. rewrite (train_is K D T F P B beta fv lfv inv_of argsort W X docLens A Y RY V vocab means varcs) in E.
  set (s0 := train_start D F argsort X docLens A Y RY V vocab means varcs) in E. cbn [Nat.eqb] in E. change (1 / 1) with 1 in E. cbn [fake_loop] in E.
  destruct (fake_iter K D T F P B beta fv lfv inv_of _ _ _ s0) as [s1|] eqn:E1 in E; cbn [bind] in E; [|discriminate].
  change (0 mod 1 =? 0) with true in E. cbn [Nat.leb Nat.ltb andb bind Nat.eqb] in E. cbv zeta in E. inversion E; subst o; clear E. cbn [r_model f_vocab].
  assert (EV : f_vocab s1 = fake_vocab T beta s0).
  { unfold fake_iter in E1. cbv zeta in E1. repeat match type of E1 with bind ?g _ = _ => destruct g; cbn [bind] in E1; [|discriminate] end. inversion E1; subst. reflexivity. }
  rewrite EV. unfold fake_vocab, s0, train_start. cbn [f_vocab f_scale]. destruct HST as [_ [_ [_ [_ [_ [Hvo _]]]]]].
  assert (Q : forall u, u < T -> (vocab k u ⊗ Fin 1) ⊕ Fin beta = Fin (val (vocab k u) + beta)).
  { intros u Hu. rewrite (fin_val (vocab k u)) by (apply Hvo; assumption). cbn. f_equal. ring. }
  assert (Z : (vsum T (fun u => val (vocab k u) + beta) = vsum T (fun u => val (vocab k u)) + INR T * beta)%R) by (rewrite vsum_plus, vsum_const; reflexivity).
  rewrite <- Z. apply fdiv; [apply Q, Ht|apply fsum; exact Q|]. apply Rgt_not_eq. apply vsum_pos; [exact HT|]. intros u Hu. destruct (Hvo k u Hk Hu). lra.
Qed.

(** ** C179: states of training as states to query *)
Theorem C179_trained_states_rejected K D T F P B beta fv lfv inv_of argsort perp lf iterations W X docLens A Y RY V vocab means varcs o n inv perp' lp its A' sigT' vocab' q :
  fake_train K D T F P B beta fv lfv inv_of argsort perp lf iterations W X docLens A Y RY V vocab means varcs = Ok o -> 1 < D -> D <> B -> 0 < its ->
  fake_query K D T W n inv perp' lp its F X A' sigT' vocab' (rf_exp_rows o) q = Raise ValueError.
Proof.
  intros E HD HDB Hi. rewrite (train_is K D T F P B beta fv lfv inv_of argsort W X docLens A Y RY V vocab means varcs) in E.
  destruct (lf =? 0); [discriminate|]. destruct (fake_loop _ _ _ _ _ _ _ _ _ _ _ _ _ _ _ _ _ _ _ _ _) as [[s x]|e] in E; cbn [bind] in E; [|discriminate].
  destruct (iterations =? 0); [discriminate|]. cbv zeta in E. inversion E; subst o; clear E. cbn [rf_exp_rows]. unfold fake_query.
  destruct (Nat.eqb_spec its 0); [lia|]. destruct (Nat.eqb_spec D 1); [lia|]. destruct (Nat.eqb_spec B D); [lia|]. reflexivity.
Qed.
Theorem C179_new_states_work K D T W n inv perp lp its F X A sigT vocab q : D <> 1 ->
  exists q', fake_query K D T W n inv perp lp its F X A sigT vocab D q = Ok q'.
Proof.
  intros HD. unfold fake_query. destruct (its =? 0); [eexists; reflexivity|]. destruct (Nat.eqb_spec D 1); [contradiction|]. rewrite Nat.eqb_refl. eexists. reflexivity.
Qed.

(** ** C180: numbers of iterations, and measurements *)
Theorem C180_measurements K D T F P B beta fv lfv inv_of argsort perp lf iterations W X docLens A Y RY V vocab means varcs o :
  fake_train K D T F P B beta fv lfv inv_of argsort perp lf iterations W X docLens A Y RY V vocab means varcs = Ok o ->
  0 < lf /\ 0 < iterations /\ rf_values o = rf_iters o /\ rf_likes o = iterations / lf.
Proof.
  intros E. rewrite (train_is K D T F P B beta fv lfv inv_of argsort W X docLens A Y RY V vocab means varcs) in E.
  destruct (Nat.eqb_spec lf 0); [discriminate|]. destruct (fake_loop _ _ _ _ _ _ _ _ _ _ _ _ _ _ _ _ _ _ _ _ _) as [[s x]|e] in E; cbn [bind] in E; [|discriminate].
  destruct (Nat.eqb_spec iterations 0); [discriminate|]. cbv zeta in E. inversion E; subst o; clear E. cbn [rf_values rf_iters rf_likes]. repeat split; lia.
Qed.
Section numbers.
  Variables K D T F P B : nat.
  Variables beta fv lfv : R.
  Variable inv_of : nat -> mat -> mat.
  Variable argsort : list Z -> list nat.
  Variables W X : mat.
  Variable docLens : list Z.
  Variable len : Z.
  Variables A Y RY V vocab means varcs : xmat.
  Hypothesis HK : 0 < K.
  Hypothesis HT : 0 < T.
  Hypothesis HDB : 0 < D <= B.
  Hypothesis Hb : (0 < beta)%R.
  Hypothesis Hfv : (0 < fv)%R.
  Hypothesis Hlfv : (0 < lfv)%R.
  Hypothesis HI : inverts K (inv_of K).
  Hypothesis HS : argsorts D argsort.
  Hypothesis HC : corpus D T W docLens.
  Hypothesis HST : sound_start K D T F P A Y RY V vocab means varcs.
  Hypothesis Hlen : forall d, d < D -> nth d docLens 0%Z = len.
  Notation train perp lf iterations := (fake_train K D T F P B beta fv lfv inv_of argsort perp lf iterations W X docLens A Y RY V vocab means varcs).

  Lemma step_exists s : trainable K D T F P s ->
    exists s', fake_iter K D T F P B beta fv lfv inv_of (rows (argsort docLens) W) (rows (argsort docLens) X) (repeat len D) s = Ok s' /\ trainable K D T F P s'.
  Proof.
    intros Hs. pose proof (sorted_counts D T argsort W docLens HS HC) as HCs. rewrite (sorted_repeat D T W docLens argsort len HS HC Hlen) in HCs.
    destruct (iter_real K D T F P B beta fv lfv inv_of (rows (argsort docLens) W) (rows (argsort docLens) X) len HK HT ltac:(lia) ltac:(lia) Hb Hfv Hlfv HI HCs s Hs) as [s' [E R]].
    exists s'. split; [exact E|apply R].
  Qed.
  (** Up to 21 iterations that are not a multiple of the frequency of the measurements fail. *)
  Theorem C180_other_numbers_fail perp lf iterations : 0 < lf -> iterations mod lf <> 0 -> iterations <= 21 -> train perp lf iterations = Raise IndexError.
  Proof.
    intros Hlf Hm Hi. rewrite (train_is K D T F P B beta fv lfv inv_of argsort W X docLens A Y RY V vocab means varcs).
    destruct (Nat.eqb_spec lf 0); [lia|]. rewrite (sorted_repeat D T W docLens argsort len HS HC Hlen).
    pose proof (loop_overruns K D T F P B beta fv lfv inv_of perp (rows (argsort docLens) W) (rows (argsort docLens) X) (repeat len D) (trainable K D T F P) lf (iterations / lf) Hlf step_exists
      iterations 0 (Fin 0) (train_start D F argsort X docLens A Y RY V vocab means varcs)
      (start_trainable K D T F P argsort W X docLens HS HC A Y RY V vocab means varcs HST)) as Q.
    change (measured lf 0) with ((lf - 1) / lf) in Q. rewrite (Nat.div_small (lf - 1) lf) in Q by lia. rewrite Q; [reflexivity| |apply Nat.le_0_l].
    clear Q. pose proof (Nat.div_mod iterations lf ltac:(lia)) as Q2. rewrite (Nat.mul_comm lf) in Q2. generalize dependent (iterations mod lf). generalize (iterations / lf * lf). clear - Hi. intros; lia.
  Qed.
  (** If the perplexity does not change, training stops in iteration 22 with 21 values, but
      as many likelihoods as it was to make. *)
  Lemma loop_const size x : 21 < size -> forall todo itr last s, trainable K D T F P s -> itr <= 21 -> 21 < itr + todo -> (0 < itr -> last = Fin x) ->
    exists s', fake_loop K D T F P B beta fv lfv inv_of (fun _ => Fin x) (rows (argsort docLens) W) (rows (argsort docLens) X) (repeat len D) size 1 itr todo itr last s = Ok (s', Some 21).
  Proof.
    intros Hsz. induction todo as [|todo IH]; intros itr last s Hs Hi Ht Hl; [lia|]. cbn [fake_loop].
    destruct (step_exists s Hs) as [s1 [E1 H1]]. rewrite E1. cbn [bind]. rewrite Nat.mod_1_r. cbn [Nat.eqb].
    destruct (Nat.leb_spec size itr); [lia|]. destruct (Nat.eq_dec itr 21) as [->|N].
    - rewrite (Hl ltac:(lia)). cbn [Nat.ltb Nat.leb andb]. unfold xlt, xsub. cbn [xopp xadd]. unfold rltb.
      destruct (Rlt_dec (x + - x) 1) as [L|L]; [eexists; reflexivity|exfalso; apply L; lra].
    - replace (20 <? itr) with false by (symmetry; apply Nat.ltb_ge; lia). rewrite andb_false_r. cbn [andb].
      apply IH; [exact H1|lia|lia|reflexivity].
  Qed.
  Theorem C180_likelihoods_kept x iterations : 21 < iterations ->
    exists o, train (fun _ => Fin x) 1 iterations = Ok o /\ rf_iters o = 21 /\ rf_values o = 21 /\ rf_likes o = iterations.
  Proof.
    intros Hi. rewrite (train_is K D T F P B beta fv lfv inv_of argsort W X docLens A Y RY V vocab means varcs).
    rewrite (sorted_repeat D T W docLens argsort len HS HC Hlen). cbn [Nat.eqb]. rewrite Nat.div_1_r.
    destruct (loop_const iterations x Hi iterations 0 (Fin 0) (train_start D F argsort X docLens A Y RY V vocab means varcs)
      (start_trainable K D T F P argsort W X docLens HS HC A Y RY V vocab means varcs HST) ltac:(lia) ltac:(lia) ltac:(lia)) as [s1 E].
    rewrite E. cbn [bind]. destruct (Nat.eqb_spec iterations 0); [lia|]. cbv zeta. eexists. split; [reflexivity|]. repeat split.
  Qed.
End numbers.
Theorem C180_zero K D T F P B beta fv lfv inv_of argsort perp W X docLens A Y RY V vocab means varcs :
  (forall iterations, fake_train K D T F P B beta fv lfv inv_of argsort perp 0 iterations W X docLens A Y RY V vocab means varcs = Raise ZeroDivisionError) /\
  (forall lf, 0 < lf -> fake_train K D T F P B beta fv lfv inv_of argsort perp lf 0 W X docLens A Y RY V vocab means varcs = Raise UnboundLocalError).
Proof. split; [reflexivity|]. intros lf H. unfold fake_train. destruct (Nat.eqb_spec lf 0); [lia|]. reflexivity. Qed.

(** ** C181: queries *)
Theorem C181_query_improves K D T W n inv perp lp its F X A sigT vocab rows q q' :
  0 < K -> counts D T W n -> covers K T vocab -> symm K (inv sigT) -> psd K (inv sigT) ->
  (forall d, d < D -> is_inverse K (lhs K n (inv sigT) d) (inv (lhs K n (inv sigT) d))) ->
  fake_query K D T W n inv perp lp its F X A sigT vocab rows q = Ok q' ->
  (forall d, d < D -> let mu := fun k => vsum F (fun f => X d f * A k f)%R in
   (log_posterior K T vocab mu (inv sigT) (W d) (q_means q d) <= log_posterior K T vocab mu (inv sigT) (W d) (q_means q' d))%R) /\
  (0 < its -> forall d k, d < D -> k < K -> q_varcs q' d k = (1 / (n d * (INR K - 1) / INR K + inv sigT k k))%R).
Proof.
  intros HK HC Hv HS HP HI E. unfold fake_query in E. destruct (Nat.eqb_spec its 0) as [->|N].
  { inversion E; subst. split; [intros; right; reflexivity|lia]. }
  destruct (D =? 1); [discriminate|]. destruct (negb _); [discriminate|]. inversion E; subst; clear E. cbn [q_means q_varcs]. split; [|reflexivity].
  assert (Hpr : forall d k, d < D -> k < K -> stm_prior K (inv sigT) (stm_mean F X A) d k = vsum K (fun j => inv sigT k j * stm_mean F X A d j)%R).
  { intros d' k _ Hk. apply vsum_ext. intros j Hj. rewrite (HS j k Hj Hk). ring. }
  intros d Hd.
  match goal with |- context [query_loop K T W n inv false perp ?i ?v ?p ?va ?it ?td ?l ?s] =>
    destruct (loop_grows K D T W n inv perp i v p va (stm_mean F X A) HK HC Hv HS HP HI Hpr td it l s eq_refl eq_refl) as [B [_ G]] end.
  rewrite B. apply (G d Hd).
Qed.

(** ** Witnesses and examples *)
(** A stable argsort. *)
Fixpoint put_in (l : list Z) (i : nat) (acc : list nat) : list nat :=
  match acc with [] => [i] | j :: r => if (nth i l 0 <=? nth j l 0)%Z then i :: acc else j :: put_in l i r end.
Definition stable_argsort (l : list Z) : list nat := fold_right (put_in l) [] (seq 0 (length l)).
Lemma put_in_perm l i acc : Permutation (put_in l i acc) (i :: acc).
Proof.
  induction acc as [|j r IH]; [reflexivity|]. cbn [put_in]. destruct (_ <=? _)%Z; [reflexivity|]. rewrite IH. apply perm_swap.
Qed.
Definition in_order (l : list Z) (acc : list nat) : Prop := forall i j, i < j -> j < length acc -> (nth (nth i acc 0%nat) l 0 <= nth (nth j acc 0%nat) l 0)%Z.
Lemma put_in_order l i acc : in_order l acc -> in_order l (put_in l i acc).
Proof.
  induction acc as [|j r IH]; intros H; [intros a b Hab Hb; cbn in Hb; lia|]. cbn [put_in]. destruct (Z.leb_spec (nth i l 0) (nth j l 0))%Z as [L|L].
  - intros a b Hab Hb. destruct a as [|a], b as [|b]; try lia; cbn [nth length] in *.
    + destruct b as [|b]; cbn [nth]; [lia|]. pose proof (H 0 (S b) ltac:(lia) ltac:(cbn [length]; lia)) as Q. cbn [nth] in Q. lia.
    + apply (H a b); cbn [length]; lia.
  - assert (H' : in_order l r) by (intros a b Hab Hb; apply (H (S a) (S b)); cbn [length]; lia). specialize (IH H').
    assert (M : forall x, In x (put_in l i r) -> (nth j l 0 <= nth x l 0)%Z).
    { intros x Hx. apply (Permutation_in _ (put_in_perm l i r)) in Hx. destruct Hx as [<-|Hx]; [lia|].
      destruct (In_nth r x 0 Hx) as [m [Hm <-]]. apply (H 0 (S m)); cbn [length]; lia. }
    intros a b Hab Hb. destruct a as [|a], b as [|b]; try lia; cbn [nth length] in *; [apply M, nth_In; lia|apply IH; lia].
Qed.
Lemma stable_argsort_sorts D : argsorts D stable_argsort.
Proof.
  intros l _. unfold stable_argsort. assert (HP : Permutation (fold_right (put_in l) [] (seq 0 (length l))) (seq 0 (length l))).
  { induction (seq 0 (length l)) as [|i r IH]; [reflexivity|]. cbn [fold_right]. rewrite put_in_perm, IH. reflexivity. }
  split; [exact HP|]. assert (L : length (fold_right (put_in l) [] (seq 0 (length l))) = length l) by (rewrite (Permutation_length HP); apply seq_length).
  assert (O : in_order l (fold_right (put_in l) [] (seq 0 (length l)))).
  { clear. induction (seq 0 (length l)) as [|i r IH]; [intros a b Hab Hb; cbn in Hb; lia|]. apply put_in_order, IH. }
  intros i j Hij Hj. apply O; lia.
Qed.

Definition xzero : xmat := fun _ _ => Fin 0.
Definition xones : xmat := fun _ _ => Fin 1.
Definition xhalf : xmat := fun _ _ => Fin (1 / 2).
Definition xbiased : xmat := fun _ t => Fin (if t =? 0 then 3 / 4 else 1 / 4)%R.
Lemma zero_start D vocab : (forall k t, is_fin (vocab k t) = true /\ (0 <= val (vocab k t))%R) -> sound_start 2 D 2 1 1 xzero xzero xones xzero vocab xzero xones.
Proof.
  intros H. repeat split; intros; try reflexivity; try apply H. unfold xones. cbn [val]. lra.
Qed.
Lemma half_start D : sound_start 2 D 2 1 1 xzero xzero xones xzero xhalf xzero xones.
Proof. apply zero_start. intros k t. split; [reflexivity|]. unfold xhalf. cbn [val]. lra. Qed.
Lemma biased_start D : sound_start 2 D 2 1 1 xzero xzero xones xzero xbiased xzero xones.
Proof. apply zero_start. intros k t. unfold xbiased. split; [reflexivity|]. cbn [val]. destruct (t =? 0); lra. Qed.
(** Two documents of different lengths, and any number of documents with [w] times the first word. *)
Definition different : mat := pair_rows no_words word_doc.
Lemma different_corpus : corpus 2 2 different [0; 1]%Z.
Proof.
  split; [reflexivity|]. split; [intros d t _ _; unfold different, pair_rows, word_doc, no_words; destruct (d =? 0); [|destruct (t =? 0)]; lra|].
  intros d Hd. destruct d as [|[|]]; [| |lia]; unfold vsum, different, pair_rows, word_doc, no_words; cbn [seq map rsum Nat.eqb nth]; lra.
Qed.
Definition same_words (w : Z) : mat := fun _ t => if t =? 0 then IZR w else 0%R.
Lemma same_corpus D w : (0 <= w)%Z -> corpus D 2 (same_words w) (repeat w D).
Proof.
  intros Hw. apply IZR_le in Hw. split; [apply repeat_length|]. split; [intros d t _ _; unfold same_words; destruct (t =? 0); lra|].
  intros d Hd. rewrite (nth_indep _ 0%Z w), nth_repeat by (rewrite repeat_length; exact Hd). unfold same_words, vsum. cbn [seq map rsum Nat.eqb]. lra.
Qed.
Lemma same_lengths D (w : Z) d : d < D -> nth d (repeat w D) 0%Z = w.
Proof. intros Hd. rewrite (nth_indep _ 0%Z w) by (rewrite repeat_length; exact Hd). apply nth_repeat. Qed.
Notation train_on W D B docLens vocab perp lf iterations :=
  (fake_train 2 D 2 1 1 B 1 1 1 (fun _ => inv2) stable_argsort perp lf iterations W ones docLens xzero xzero xones xzero vocab xzero xones).

Theorem C175_finite_topics_refuted : forall B, 2 <= B -> exists K D T F P beta fv lfv inv_of argsort perp lf iterations W X docLens A Y RY V vocab means varcs,
  0 < K /\ 0 < T /\ 0 < D <= B /\ (0 < beta)%R /\ (0 < fv)%R /\ (0 < lfv)%R /\ inverts K (inv_of K) /\ argsorts D argsort /\ corpus D T W docLens /\
  sound_start K D T F P A Y RY V vocab means varcs /\ 0 < lf /\ 0 < iterations /\ iterations mod lf = 0 /\
  fake_train K D T F P B beta fv lfv inv_of argsort perp lf iterations W X docLens A Y RY V vocab means varcs = Raise ValueError.
Proof.
  intros B HB. exists 2, 2, 2, 1, 1, 1%R, 1%R, 1%R, (fun _ => inv2), stable_argsort, (fun _ => Fin 0), 1, 2, different, ones, [0; 1]%Z, xzero, xzero, xones, xzero, xhalf, xzero, xones.
  do 2 (split; [lia|]). split; [lia|]. do 3 (split; [lra|]). split; [exact inv2_inverts|]. split; [apply stable_argsort_sorts|]. split; [exact different_corpus|].
  split; [apply half_start|]. do 2 (split; [lia|]). split; [reflexivity|].
  apply (C175_more_iterations_fail 2 2 2 1 1 B 1 1 1) with (a := 0) (b := 1);
    [lia|exact HB|apply stable_argsort_sorts|exact different_corpus|apply half_start|lia|lia|cbn [nth]; lia|lia|lia].
Qed.
Example C175_example : exists o, train_on (same_words 3) 3 5 (repeat 3%Z 3) xhalf (fun _ => Fin 0) 2 (4 * 2) = Ok o /\
  (forall d k, d < 3 -> k < 2 -> is_fin (rf_means o d k) = true) /\ forall k, k < 2 -> positive_dist 2 (fun t => val (f_vocab (r_model o) k t)).
Proof.
  destruct (C175_one_length 2 3 2 1 1 5 1 1 1 (fun _ => inv2) stable_argsort (fun _ => Fin 0) 2 4 (same_words 3) ones (repeat 3%Z 3) 3%Z xzero xzero xones xzero xhalf xzero xones)
    as [o [E [_ [H1 [_ [_ [_ [_ H2]]]]]]]];
    [lia|lia|lia|lra|lra|lra|exact inv2_inverts|apply stable_argsort_sorts|apply same_corpus; lia|apply half_start|lia|lia|apply same_lengths|].
  exists o. split; [exact E|]. split; [intros d k Hd Hk; apply (H1 d k Hd Hk)|]. intros k Hk. apply (H2 k Hk).
Qed.
Example C175_lost_example : exists o, train_on different 2 4 [0; 1]%Z xhalf (fun _ => Fin 0) 1 1 = Ok o /\ is_fin (rf_means o 1 0) = false.
Proof.
  destruct (C175_longest_document_lost 2 2 2 1 1 4 1 1 1 (fun _ => inv2) stable_argsort (fun _ => Fin 0) different ones [0; 1]%Z xzero xzero xones xzero xhalf xzero xones 0 1)
    as [o [d [E [Hd [Hm H]]]]];
    [lia|lia|apply stable_argsort_sorts|exact different_corpus|apply half_start|lia|lia|cbn [nth]; lia|].
  exists o. split; [exact E|]. specialize (Hm 1 ltac:(lia)). destruct d as [|[|]]; [cbn [nth] in Hm; lia| |lia]. apply H. lia.
Qed.

Theorem C176_reads_outside_refuted : forall B, 0 < B -> exists K D T F P beta fv lfv inv_of argsort perp lf iterations W X docLens A Y RY V vocab means varcs,
  0 < K /\ inverts K (inv_of K) /\ argsorts D argsort /\ corpus D T W docLens /\ sound_start K D T F P A Y RY V vocab means varcs /\ 0 < lf /\ 0 < iterations /\
  fake_train K D T F P B beta fv lfv inv_of argsort perp lf iterations W X docLens A Y RY V vocab means varcs = Raise MemoryOOB.
Proof.
  intros B HB. exists 2, (S B), 2, 1, 1, 1%R, 1%R, 1%R, (fun _ => inv2), stable_argsort, (fun _ => Fin 0), 1, 1, (same_words 3), ones, (repeat 3%Z (S B)), xzero, xzero, xones, xzero, xhalf, xzero, xones.
  split; [lia|]. split; [exact inv2_inverts|]. split; [apply stable_argsort_sorts|]. split; [apply same_corpus; lia|]. split; [apply half_start|].
  do 2 (split; [lia|]).
  apply (C176_larger_corpora_read_outside 2 (S B) 2 1 1 B 1 1 1) with (d := 0);
    [lia|lia|apply stable_argsort_sorts|apply same_corpus; lia|apply half_start|lia|rewrite same_lengths; lia|lia|lia].
Qed.
Example C176_example : train_on different 2 2 [0; 1]%Z xhalf (fun _ => Fin 0) 1 7 <> Raise MemoryOOB.
Proof. apply C176_within_the_buffer; [reflexivity|apply stable_argsort_sorts|lia]. Qed.

(** A state in which training of two documents starts. *)
Definition same_start (vocab : xmat) : fake := train_start 2 1 stable_argsort ones (repeat 2%Z 2) xzero xzero xones xzero vocab xzero xones.
Lemma same_start_trainable vocab : sound_start 2 2 2 1 1 xzero xzero xones xzero vocab xzero xones -> trainable 2 2 2 1 1 (same_start vocab).
Proof. intros H. apply (start_trainable 2 2 2 1 1 stable_argsort (same_words 2)); [apply stable_argsort_sorts|apply same_corpus; lia|exact H]. Qed.
Lemma same_counts : counts 2 2 (same_words 2) (fun d => IZR (nth d (repeat 2%Z 2) 0%Z)).
Proof. apply (same_corpus 2 2). lia. Qed.
Notation same_iter := (fake_iter 2 2 2 1 1 4 1 1 1 (fun _ => inv2) (same_words 2) ones (repeat 2%Z 2)).
Lemma same_iter_works s : trainable 2 2 2 1 1 s -> exists s', same_iter s = Ok s' /\ trainable 2 2 2 1 1 s'.
Proof.
  intros H. destruct (iter_real 2 2 2 1 1 4 1 1 1 (fun _ => inv2) (same_words 2) ones 2 ltac:(lia) ltac:(lia) ltac:(lia) ltac:(lia) ltac:(lra) ltac:(lra) ltac:(lra) inv2_inverts same_counts s H) as [s' [E R]].
  exists s'. split; [exact E|apply R].
Qed.
Example C177_example : exists s', same_iter (same_start xbiased) = Ok s' /\ forall d, d < 2 ->
  let mu := fun k => vsum 1 (fun f => ones d f * val (f_A s' k f))%R in
  let precision := fun i j => (isig_scale 2 1 1 * inv2 (vm (f_sigT s')) i j)%R in
  (log_posterior 2 2 (vm (f_vocab s')) mu precision (same_words 2 d) (fun _ => 0)
   <= log_posterior 2 2 (vm (f_vocab s')) mu precision (same_words 2 d) (vm (f_means s') d))%R.
Proof.
  destruct (same_iter_works _ (same_start_trainable xbiased (biased_start 2))) as [s' [E _]]. exists s'. split; [exact E|]. intros d Hd.
  apply (C177_topics_improve 2 2 2 1 1 4 1 1 1 (fun _ => inv2) (same_words 2) ones 2 ltac:(lia) ltac:(lia) ltac:(lia) ltac:(lia) ltac:(lra) ltac:(lra) ltac:(lra) inv2_inverts same_counts
    (same_start xbiased) s' d (same_start_trainable xbiased (biased_start 2)) E Hd).
Qed.
Example C178_example : exists s1 s2, same_iter (same_start xbiased) = Ok s1 /\ same_iter s1 = Ok s2 /\
  (fit 2 2 2 1 (same_words 2) (vm (f_vocab s1)) (vm (f_means s1)) <= fit 2 2 2 1 (same_words 2) (vm (f_vocab s2)) (vm (f_means s1)))%R.
Proof.
  destruct (same_iter_works _ (same_start_trainable xbiased (biased_start 2))) as [s1 [E1 H1]]. destruct (same_iter_works s1 H1) as [s2 [E2 _]].
  exists s1, s2. split; [exact E1|]. split; [exact E2|].
  apply (C178_later_vocabularies_improve 2 2 2 1 1 4 1 1 1 (fun _ => inv2) (same_words 2) ones 2 ltac:(lia) ltac:(lia) ltac:(lia) ltac:(lia) ltac:(lra) ltac:(lra) ltac:(lra) inv2_inverts same_counts
    (same_start xbiased) s1 s2 (same_start_trainable xbiased (biased_start 2)) E1 E2).
Qed.

(** The first vocabulary can fit the documents worse than that of the start. *)
Lemma fit_same (v : mat) (M : mat) a b : (0 < a)%R -> (0 < b)%R -> (forall k, v k 0%nat = a /\ v k 1%nat = b) ->
  fit 2 2 2 1 (same_words 2) v M = (6 * ln a + 2 * ln b)%R.
Proof.
  intros Ha Hb' H. unfold fit, log_like.
  assert (E : forall d, vsum 2 (fun t => same_words 2 d t * ln (vsum 2 (fun k => softmax 2 (M d) k * v k t)))%R = (2 * ln a)%R).
  { intros d. pose proof (softmax_sum 2 ltac:(lia) (M d)) as S. unfold vsum in S |- *. cbn [seq map rsum] in S |- *. unfold same_words. cbn [Nat.eqb].
    destruct (H 0) as [-> _], (H 1) as [-> _]. replace (softmax 2 (M d) 0%nat * a + (softmax 2 (M d) 1%nat * a + 0))%R with ((softmax 2 (M d) 0%nat + (softmax 2 (M d) 1%nat + 0)) * a)%R by ring.
    rewrite S. replace (1 * a)%R with a by ring. ring. }
  unfold vsum at 1. cbn [seq map rsum]. rewrite !E. unfold vsum. cbn [seq map rsum]. destruct (H 0) as [-> ->], (H 1) as [-> ->]. ring.
Qed.
Theorem C178_first_vocabulary_refuted : forall B, 2 <= B -> exists K D T F P beta fv lfv inv_of argsort perp W X docLens A Y RY V vocab means varcs o,
  inverts K (inv_of K) /\ argsorts D argsort /\ corpus D T W docLens /\ sound_start K D T F P A Y RY V vocab means varcs /\
  (forall k, k < K -> positive_dist T (vm vocab k)) /\
  fake_train K D T F P B beta fv lfv inv_of argsort perp 1 1 W X docLens A Y RY V vocab means varcs = Ok o /\
  (fit K D T beta W (vm (f_vocab (r_model o))) (vm means) < fit K D T beta W (vm vocab) (vm means))%R.
Proof.
  intros B HB. destruct (C175_one_length 2 2 2 1 1 B 1 1 1 (fun _ => inv2) stable_argsort (fun _ => Fin 0) 1 1 (same_words 2) ones (repeat 2%Z 2) 2%Z xzero xzero xones xzero xbiased xzero xones)
    as [o [E _]];
    [lia|lia|lia|lra|lra|lra|exact inv2_inverts|apply stable_argsort_sorts|apply same_corpus; lia|apply biased_start|lia|lia|apply same_lengths|].
  exists 2, 2, 2, 1, 1, 1%R, 1%R, 1%R, (fun _ => inv2), stable_argsort, (fun _ => Fin 0), (same_words 2), ones, (repeat 2%Z 2), xzero, xzero, xones, xzero, xbiased, xzero, xones, o.
  split; [exact inv2_inverts|]. split; [apply stable_argsort_sorts|]. split; [apply same_corpus; lia|]. split; [apply biased_start|].
  split. { intros k _. split; [intros t _; unfold xbiased; cbn [val]; destruct (t =? 0); lra|]. unfold xbiased, vsum. cbn [seq map rsum val Nat.eqb]. lra. }
  split; [exact E|].
  pose proof (C178_first_vocabulary 2 2 2 1 1 B 1 1 1 (fun _ => inv2) stable_argsort (fun _ => Fin 0) (same_words 2) ones (repeat 2%Z 2) xzero xzero xones xzero xbiased xzero xones o
    ltac:(lia) ltac:(lra) (biased_start 2) E) as V.
  assert (V0 : forall k, k < 2 -> val (f_vocab (r_model o) k 0) = (7 / 12)%R).
  { intros k Hk. rewrite (V k 0 Hk ltac:(lia)). unfold xbiased, vsum. cbn [seq map rsum val Nat.eqb INR]. lra. }
  assert (V1 : forall k, k < 2 -> val (f_vocab (r_model o) k 1) = (5 / 12)%R).
  { intros k Hk. rewrite (V k 1 Hk ltac:(lia)). unfold xbiased, vsum. cbn [seq map rsum val Nat.eqb INR]. lra. }
  set (v' := fun k t : nat => if t =? 0 then (7 / 12)%R else (5 / 12)%R).
  assert (EF : fit 2 2 2 1 (same_words 2) (vm (f_vocab (r_model o))) (vm xzero) = fit 2 2 2 1 (same_words 2) v' (vm xzero)).
  { assert (EE : forall k t, k < 2 -> t < 2 -> val (f_vocab (r_model o) k t) = v' k t) by (intros k t Hk Ht; destruct t as [|[|]]; [apply V0, Hk|apply V1, Hk|lia]).
    unfold fit. f_equal; [|f_equal].
    - apply vsum_ext. intros d Hd. apply (log_like_ext 2 2). exact EE.
    - apply vsum_ext. intros k Hk. apply vsum_ext. intros t Ht. rewrite EE by assumption. reflexivity. }
  rewrite EF, (fit_same v' _ (7 / 12) (5 / 12)) by (try lra; intros; split; reflexivity).
  rewrite (fit_same (vm xbiased) _ (3 / 4) (1 / 4)) by (try lra; intros; split; reflexivity).
  assert (L : (ln (7 / 12 * (7 / 12) * (7 / 12) * (5 / 12)) < ln (3 / 4 * (3 / 4) * (3 / 4) * (1 / 4)))%R) by (apply ln_increasing; lra).
  rewrite !ln_mult in L by lra. lra.
Qed.

Theorem C179_trained_states_refuted : forall B, 2 < B -> exists K D T F P beta fv lfv inv_of argsort perp lf iterations W X docLens A Y RY V vocab means varcs o n inv perp' lp its A' sigT' vocab' q,
  corpus D T W docLens /\ (forall d, d < D -> n d = IZR (nth d docLens 0%Z)) /\
  fake_train K D T F P B beta fv lfv inv_of argsort perp lf iterations W X docLens A Y RY V vocab means varcs = Ok o /\
  fake_query K D T W n inv perp' lp its F X A' sigT' vocab' (rf_exp_rows o) q = Raise ValueError.
Proof.
  intros B HB. destruct (C175_one_length 2 2 2 1 1 B 1 1 1 (fun _ => inv2) stable_argsort (fun _ => Fin 0) 1 3 (same_words 2) ones (repeat 2%Z 2) 2%Z xzero xzero xones xzero xbiased xzero xones)
    as [o [E _]];
    [lia|lia|lia|lra|lra|lra|exact inv2_inverts|apply stable_argsort_sorts|apply same_corpus; lia|apply biased_start|lia|lia|apply same_lengths|].
  exists 2, 2, 2, 1, 1, 1%R, 1%R, 1%R, (fun _ => inv2), stable_argsort, (fun _ => Fin 0), 1, (3 * 1), (same_words 2), ones, (repeat 2%Z 2), xzero, xzero, xones, xzero, xbiased, xzero, xones, o,
    (fun d => IZR (nth d (repeat 2%Z 2) 0%Z)), inv2, (fun _ => 0%R), 0%R, 1, (vm (f_A (r_model o))), (vm (f_sigT (r_model o))), (vm (f_vocab (r_model o))),
    {| q_means := vm (rf_means o); q_exp := vm (rf_exp o); q_varcs := vm (rf_varcs o) |}.
  split; [apply same_corpus; lia|]. split; [reflexivity|]. split; [exact E|].
  refine (C179_trained_states_rejected 2 2 2 1 1 B 1 1 1 (fun _ => inv2) stable_argsort _ _ _ _ _ _ _ _ _ _ _ _ _ _ _ _ _ _ _ _ _ _ _ E _ _ _); lia.
Qed.

Theorem C180_iterations_refuted : forall B, 2 <= B -> exists K D T F P beta fv lfv inv_of argsort perp W X docLens A Y RY V vocab means varcs,
  inverts K (inv_of K) /\ argsorts D argsort /\ corpus D T W docLens /\ sound_start K D T F P A Y RY V vocab means varcs /\
  (exists lf iterations, 0 < lf < iterations /\
   fake_train K D T F P B beta fv lfv inv_of argsort perp lf iterations W X docLens A Y RY V vocab means varcs = Raise IndexError) /\
  (exists lf iterations o, 0 < lf < iterations /\
   fake_train K D T F P B beta fv lfv inv_of argsort perp lf iterations W X docLens A Y RY V vocab means varcs = Ok o /\ rf_values o < rf_likes o).
Proof.
  intros B HB. exists 2, 2, 2, 1, 1, 1%R, 1%R, 1%R, (fun _ => inv2), stable_argsort, (fun _ => Fin 0), (same_words 2), ones, (repeat 2%Z 2), xzero, xzero, xones, xzero, xbiased, xzero, xones.
  split; [exact inv2_inverts|]. split; [apply stable_argsort_sorts|]. split; [apply same_corpus; lia|]. split; [apply biased_start|]. split.
  - exists 2, 5. split; [lia|]. apply (C180_other_numbers_fail 2 2 2 1 1 B 1 1 1) with (len := 2%Z);
      [lia|lia|lia|lra|lra|lra|exact inv2_inverts|apply stable_argsort_sorts|apply same_corpus; lia|apply biased_start|apply same_lengths|lia|discriminate|lia].
  - destruct (C180_likelihoods_kept 2 2 2 1 1 B 1 1 1 (fun _ => inv2) stable_argsort (same_words 2) ones (repeat 2%Z 2) 2 xzero xzero xones xzero xbiased xzero xones) with (x := 0%R) (iterations := 30)
      as [o [E [H1 [H2 H3]]]]; [lia|lia|lia|lra|lra|lra|exact inv2_inverts|apply stable_argsort_sorts|apply same_corpus; lia|apply biased_start|apply same_lengths|lia|].
    exists 1, 30, o. split; [lia|]. split; [exact E|]. lia.
Qed.
Example C180_example : exists o, train_on (same_words 3) 3 5 (repeat 3%Z 3) xhalf (fun _ => Fin 0) 2 (4 * 2) = Ok o /\ rf_values o = rf_iters o /\ rf_likes o = 4.
Proof.
  destruct C175_example as [o [E _]]. exists o. split; [exact E|]. destruct (C180_measurements _ _ _ _ _ _ _ _ _ _ _ _ _ _ _ _ _ _ _ _ _ _ _ _ _ E) as [_ [_ [H1 H2]]].
  split; [exact H1|]. rewrite H2. reflexivity.
Qed.
Example C181_example : exists q', fake_query 2 2 2 two_words four inv2 (fun _ => 0%R) 0 5 1 ones ones eye two_topics 2
    {| q_means := two_means; q_exp := two_means; q_varcs := two_means |} = Ok q' /\ q_varcs q' 0 0 = (1 / 3)%R /\
  forall d, d < 2 -> let mu := fun k => vsum 1 (fun f => ones d f * ones k f)%R in
  (log_posterior 2 2 two_topics mu (inv2 eye) (two_words d) (two_means d) <= log_posterior 2 2 two_topics mu (inv2 eye) (two_words d) (q_means q' d))%R.
Proof.
  destruct (C179_new_states_work 2 2 2 two_words four inv2 (fun _ => 0%R) 0 5 1 ones ones eye two_topics {| q_means := two_means; q_exp := two_means; q_varcs := two_means |} ltac:(lia)) as [q' E].
  exists q'. split; [exact E|].
  destruct (C181_query_improves 2 2 2 two_words four inv2 (fun _ => 0%R) 0 5 1 ones ones eye two_topics 2 {| q_means := two_means; q_exp := two_means; q_varcs := two_means |} q') as [H1 H2];
    [lia|exact two_counts|exact (positive_covers 2 2 _ ltac:(lia) two_dists)| | | |exact E|].
  - intros i j Hi Hj. rewrite !inv2_eye by assumption. apply (eye_symm 2); assumption.
  - intros x. rewrite (quad_ext 2 (inv2 eye) eye x x x x inv2_eye (fun _ _ => eq_refl) (fun _ _ => eq_refl)). apply eye_psd.
  - intros d _. apply inv2_lhs. unfold four. lra.
  - split; [|exact H1]. rewrite (H2 ltac:(lia) 0 0 ltac:(lia) ltac:(lia)), inv2_eye by lia. unfold four, eye. cbn [Nat.eqb INR]. lra.
Qed.

Print Assumptions C175_one_length.
Print Assumptions C175_longest_document_lost.
Print Assumptions C175_more_iterations_fail.
Print Assumptions C176_within_the_buffer.
Print Assumptions C176_larger_corpora_read_outside.
Print Assumptions C177_topics_improve.
Print Assumptions C178_later_vocabularies_improve.
Print Assumptions C178_first_vocabulary.
Print Assumptions C179_trained_states_rejected.
Print Assumptions C179_new_states_work.
Print Assumptions C180_measurements.
Print Assumptions C180_other_numbers_fail.
Print Assumptions C180_likelihoods_kept.
Print Assumptions C180_zero.
Print Assumptions C181_query_improves.
Print Assumptions C175_finite_topics_refuted.
Print Assumptions C176_reads_outside_refuted.
Print Assumptions C178_first_vocabulary_refuted.
Print Assumptions C179_trained_states_refuted.
Print Assumptions C180_iterations_refuted.
