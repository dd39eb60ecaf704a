(** * C242-C244: debugging output and the computation of bounds leave training alone. *)
From Coq Require Import List Reals Arith Bool Lia Lra.
From Verif Require Import Base RealModel RealProofs DebugModel.
Import ListNotations.
Local Open Scope nat_scope.

(** ** The heap *)
Lemma store_length : forall h a v, length (store h a v) = length h.
Proof. induction h as [|x h IH]; intros [|a] v; simpl; auto. Qed.

Lemma load_store_other : forall h a b v, a <> b -> load (store h a v) b = load h b.
Proof.
  unfold load. induction h as [|x h IH]; intros [|a] [|b] v Hn; simpl; auto; try lia.
Qed.

Lemma load_store_same : forall h a v, a < length h -> load (store h a v) a = v.
Proof. unfold load. induction h as [|x h IH]; intros [|a] v Ha; simpl in *; try lia; auto. apply IH. lia. Qed.

Lemma store_store : forall h a v w, store (store h a v) a w = store h a w.
Proof. induction h as [|x h IH]; intros [|a] v w; simpl; auto. now rewrite IH. Qed.

Lemma store_load : forall h a, store h a (load h a) = h.
Proof. unfold load. induction h as [|x h IH]; intros [|a]; simpl; auto. now rewrite IH. Qed.

Lemma store_fresh : forall h c v, firstn (length h) (store (h ++ [c]) (length h) v) = h.
Proof. induction h as [|x h IH]; intros c v; simpl; auto. now rewrite IH. Qed.

Lemma drop_fresh : forall h (c : arr), firstn (length h) (h ++ [c]) = h.
Proof. induction h as [|x h IH]; intros c; simpl; auto. now rewrite IH. Qed.

(** ** C242: debugging *)
(** A debugging call that comes to its end leaves every array and name as it was. *)
Lemma debug_call_same : forall T value mo c s old s' b l,
  debug_call T value mo c s old = Ok (s', b, l) -> s' = s.
Proof.
  intros T value mo c [h m e] old s' b l.
  destruct mo; unfold debug_call; cbn [mem means_at exp_at var_bound_mem];
    try (destruct (attr_words c); [|discriminate]; cbn [bind]);
    try (destruct (var_bound_value T value _ _ _ _); try (destruct (int_of _); [|discriminate]); cbn [bind]);
    intros H; try discriminate; injection H as <- _ _;
    rewrite ?store_fresh, ?drop_fresh, ?firstn_all; reflexivity.
Qed.

Lemma run_same : forall T value mo c steps s old out s' b l,
  run T value true mo c steps s old out = Ok (s', b, l) ->
  forall old' out', run T value false mo c steps s old' out' = Ok (s', old', out').
Proof.
  intros T value mo c. induction steps as [|f fs IH]; intros s old out s' b l H old' out'.
  - cbn [run] in *. now injection H as <- _ _.
  - cbn [run] in *. destruct (f s) as [s1|]; [|discriminate]. cbn [bind] in *. unfold debug_fn at 1 in H. unfold debug_fn at 1.
    cbn [bind]. destruct (debug_call T value mo c s1 old) as [[[s2 b2] l2]|] eqn:Ed; [|discriminate].
    cbn [bind] in H. apply debug_call_same in Ed. subst s2. exact (IH _ _ _ _ _ _ H old' out').
Qed.

(** Whenever training (or a query) with debugging returns, it returns the state that
    it returns without. *)
Theorem C242_same_result : forall T value mo steps s before s' b l,
  train T value true mo steps s before = Ok (s', b, l) ->
  exists b', train T value false mo steps s before = Ok (s', b', []).
Proof. intros T value mo steps s before s' b l H. exists (first_old mo before). exact (run_same _ _ _ _ _ _ _ _ _ _ _ H _ _). Qed.

Theorem C242_same_answer : forall T value mo steps s before s' b l,
  query T value true mo steps s before = Ok (s', b, l) ->
  exists b', query T value false mo steps s before = Ok (s', b', []).
Proof. intros T value mo steps s before s' b l H. exists (first_old mo before). exact (run_same _ _ _ _ _ _ _ _ _ _ _ H _ _). Qed.

(** With finite bounds debugging does not stop what would finish without it. *)
Definition finite (b : bnd) : Prop := exists r, b = BFin r.

Lemma finite_sub : forall a b, finite a -> finite b -> int_of (bnd_sub a b) = Ok tt.
Proof. intros a b [x ->] [y ->]. reflexivity. Qed.

Lemma debug_call_ok : forall T value mo c s old,
  mo <> StmYv -> (mo = Mtm2 \/ mo = Mtm3 -> c = Data) ->
  (forall h, finite (value mo h)) -> finite old ->
  exists b l, debug_call T value mo c s old = Ok (s, b, l) /\ finite b.
Proof.
  intros T value mo c [h m e] old Hm Hc Hv Ho.
  assert (Hb : forall h m e, finite (var_bound_value T value mo h m e)).
  { intros. destruct mo; cbn [var_bound_value]; auto. now exists 0%R. }
  destruct mo; try congruence;
    try (rewrite (Hc ltac:(auto)));
    unfold debug_call; cbn [mem means_at exp_at var_bound_mem attr_words bind].
  - do 2 eexists. split; [now rewrite store_fresh|apply Hb].
  - destruct (Hb (h ++ [load h m]) m (length h)) as [r Hr]. rewrite Hr.
    rewrite finite_sub by (auto; now exists r). cbn [bind]. rewrite store_fresh.
    do 2 eexists. split; [reflexivity|now exists r].
  - destruct (Hb (h ++ [load h m]) m (length h)) as [r Hr]. rewrite Hr.
    rewrite finite_sub by (auto; now exists r). cbn [bind]. rewrite store_fresh.
    do 2 eexists. split; [reflexivity|now exists r].
  - destruct (Hb (h ++ [load h m]) m (length h)) as [r Hr]. rewrite Hr.
    rewrite finite_sub by (auto; now exists r). cbn [bind]. rewrite drop_fresh.
    do 2 eexists. split; [reflexivity|now exists r].
  - destruct (Hb h m e) as [r Hr]. rewrite Hr. rewrite finite_sub by (auto; now exists r). cbn [bind]. rewrite firstn_all.
    do 2 eexists. split; [reflexivity|now exists r].
  - destruct (Hb h m e) as [r Hr]. rewrite Hr. rewrite finite_sub by (auto; now exists r). cbn [bind]. rewrite firstn_all.
    do 2 eexists. split; [reflexivity|now exists r].
Qed.

Lemma run_ok : forall T value mo c,
  mo <> StmYv -> (mo = Mtm2 \/ mo = Mtm3 -> c = Data) -> (forall h, finite (value mo h)) ->
  forall steps s old out old0 out0 s' b' l',
  finite old -> run T value false mo c steps s old0 out0 = Ok (s', b', l') ->
  exists b l, run T value true mo c steps s old out = Ok (s', b, l) /\ finite b /\ length l = length out + length steps.
Proof.
  intros T value mo c Hm Hc Hv. induction steps as [|f fs IH]; intros s old out old0 out0 s' b' l' Ho H; cbn [run] in *.
  - injection H as <- _ _. exists old, out. cbn [length]. repeat split; auto.
  - destruct (f s) as [s1|]; [|discriminate]. cbn [bind] in *. unfold debug_fn at 1 in H. unfold debug_fn at 1. cbn [bind] in *.
    destruct (debug_call_ok T value mo c s1 old Hm Hc Hv Ho) as (b & l & E & Hb). rewrite E. cbn [bind].
    destruct (IH s1 b (out ++ [l]) _ _ _ _ _ Hb H) as (b2 & l2 & E2 & Hb2 & Hl). exists b2, l2. repeat split; auto.
    rewrite Hl, app_length. cbn [length]. lia.
Qed.

Lemma first_old_finite : forall mo b, finite b -> finite (first_old mo b).
Proof. intros mo b H. destruct mo; cbn [first_old]; auto; now exists 0%R. Qed.

Theorem C242_training_finishes : forall T value mo steps s before s' b' l',
  mo <> StmYv -> (forall h, finite (value mo h)) -> finite before ->
  train T value false mo steps s before = Ok (s', b', l') ->
  exists b l, train T value true mo steps s before = Ok (s', b, l) /\ length l = length steps.
Proof.
  intros T value mo steps s before s' b' l' Hm Hv Hb H. unfold train in *.
  destruct (run_ok T value mo (train_corpus mo) Hm) with (steps := steps) (s := s) (old := first_old mo before) (out := @nil line)
    (old0 := first_old mo before) (out0 := @nil line) (s' := s') (b' := b') (l' := l') as (b & l & E & _ & Hl); auto.
  - intros [-> | ->]; reflexivity.
  - now apply first_old_finite.
  - exists b, l. auto.
Qed.

Theorem C242_query_finishes : forall T value mo steps s before s' b' l',
  mo <> StmYv -> mo <> Mtm2 -> (forall h, finite (value mo h)) -> finite before ->
  query T value false mo steps s before = Ok (s', b', l') ->
  exists b l, query T value true mo steps s before = Ok (s', b, l) /\ length l = length steps.
Proof.
  intros T value mo steps s before s' b' l' Hm Hm2 Hv Hb H. unfold query in *.
  destruct (run_ok T value mo (query_corpus mo) Hm) with (steps := steps) (s := s) (old := first_old mo before) (out := @nil line)
    (old0 := first_old mo before) (out0 := @nil line) (s' := s') (b' := b') (l' := l') as (b & l & E & _ & Hl); auto.
  - intros [-> | ->]; [congruence|reflexivity].
  - now apply first_old_finite.
  - exists b, l. auto.
Qed.

(** ctm_bouchard does not convert the difference to an integer, so that no value of the
    bound stops it. *)
Theorem C242_ctm_finishes : forall T value steps s before s' b' l',
  train T value false Ctm steps s before = Ok (s', b', l') ->
  exists b l, train T value true Ctm steps s before = Ok (s', b, l) /\ length l = length steps.
Proof.
  intros T value steps s before s' b' l'. unfold train. cbn [first_old train_corpus].
  assert (G : forall steps s old out old0 out0 s' b' l',
    run T value false Ctm Words steps s old0 out0 = Ok (s', b', l') ->
    exists b l, run T value true Ctm Words steps s old out = Ok (s', b, l) /\ length l = length out + length steps).
  { clear. induction steps as [|f fs IH]; intros s old out old0 out0 s' b' l' H; cbn [run] in *.
    - injection H as <- _ _. exists old, out. cbn [length]. split; auto.
    - destruct (f s) as [[h m e]|]; [|discriminate]. cbn [bind] in *. unfold debug_fn at 1 in H. unfold debug_fn at 1. cbn [bind] in *.
      unfold debug_call. cbn [mem means_at exp_at var_bound_mem bind]. rewrite store_fresh.
      match goal with |- exists b l, run _ _ _ _ _ _ _ ?o ?q = _ /\ _ =>
        destruct (IH _ o q _ _ _ _ _ H) as (b2 & l2 & E2 & Hl) end.
      exists b2, l2. split; auto. rewrite Hl, app_length. cbn [length]. lia. }
  intros H. destruct (G steps s before [] _ _ _ _ _ H) as (b & l & E & Hl). exists b, l. auto.
Qed.

(** Queries of mtm_vb and everything of stm_yv_bouchard stop at the first debugging call. *)
Theorem C242_query_stops : forall T value f fs s s1 before,
  f s = Ok s1 -> query T value true Mtm2 (f :: fs) s before = Raise AttributeError.
Proof. intros T value f fs s s1 before H. unfold query. cbn [run]. rewrite H. reflexivity. Qed.

Theorem C242_stm_yv_stops : forall T value f fs s s1 before,
  f s = Ok s1 ->
  train T value true StmYv (f :: fs) s before = Raise TypeError /\
  query T value true StmYv (f :: fs) s before = Raise TypeError.
Proof. intros T value f fs s s1 before H. unfold train, query. cbn [run]. rewrite H. split; reflexivity. Qed.

(** An infinite bound stops all modules that print the difference as an integer. *)
Theorem C242_infinite_stops : forall T value mo f fs s s1 before,
  mo = CtmBohning \/ mo = StmYvBohning \/ mo = Mtm2 \/ mo = Mtm3 -> finite before ->
  (forall h, value mo h = BNeg) -> f s = Ok s1 ->
  train T value true mo (f :: fs) s before = Raise OtherError.
Proof.
  intros T value mo f fs s [h m e] before Hm [r ->] Hv Hf. unfold train. cbn [run]. rewrite Hf. cbn [bind]. unfold debug_fn.
  destruct Hm as [-> | [-> | [-> | ->]]]; unfold debug_call;
    cbn [mem means_at exp_at var_bound_mem var_bound_value train_corpus attr_words bind first_old];
    rewrite Hv; reflexivity.
Qed.

(** The claim: training and queries give with debugging what they give without. *)
Definition debugging_is_harmless : Prop := forall T value mo steps s before s' b' l',
  query T value false mo steps s before = Ok (s', b', l') ->
  exists b l, query T value true mo steps s before = Ok (s', b, l).

Theorem C242_harmless_refuted : ~ debugging_is_harmless.
Proof.
  intros H.
  destruct (H 700%R (fun _ _ => BFin 1) Mtm2 [fun s => Ok s] (mkState [] 0 0) (BFin 0) _ _ _ eq_refl) as (b & l & E).
  discriminate.
Qed.

(** Three updates, the second of which makes a new array of means: the state without and
    with debugging, and the bounds shown. *)
Definition double (s : state) : res state :=
  Ok (mkState (mem s ++ [map (map (fun x => num_add x x)) (load (mem s) (means_at s))]) (length (mem s)) (exp_at s)).
Example C242_case : exists b l, let s0 := mkState [[[Fin 1; Fin 0]]; [[Fin 9; Fin 9]]] 0 1 in
  train 700 (fun _ h => BFin (INR (length h))) true CtmBohning [double; double] s0 (BFin 0) =
  Ok (mkState [[[Fin 1; Fin 0]]; [[Fin 9; Fin 9]]; [[Fin (1 + 1); Fin (0 + 0)]]; [[Fin (1 + 1 + (1 + 1)); Fin (0 + 0 + (0 + 0))]]] 3 1, b, l)
  /\ length l = 2.
Proof.
  destruct (C242_training_finishes 700 (fun _ h => BFin (INR (length h))) CtmBohning [double; double]
    (mkState [[[Fin 1; Fin 0]]; [[Fin 9; Fin 9]]] 0 1) (BFin 0) _ _ _ ltac:(discriminate) ltac:(intros h; now eexists) ltac:(now eexists)
    eq_refl) as (b & l & E & Hl). exists b, l. split; [exact E|exact Hl].
Qed.

(** ** C243: var_bound *)
(** A sequence of calls of var_bound on the same query state. *)
Theorem C243_other_arrays : forall T mo h m e a,
  mo <> StmYv -> a <> e -> load (var_bound_mem T mo h m e) a = load h a.
Proof.
  intros T mo h m e a Hm Ha. destruct mo; cbn [var_bound_mem]; auto; try congruence; apply load_store_other; congruence.
Qed.

Theorem C243_no_arrays : forall T mo h m e,
  mo = FakeOnline \/ mo = Mtm2 \/ mo = Mtm3 -> var_bound_mem T mo h m e = h.
Proof. intros T mo h m e [-> | [-> | ->]]; reflexivity. Qed.

(** Calls in a row: the second has the value of the first and changes nothing more. *)
Theorem C243_serial : forall T value mo h m e,
  mo <> StmYv -> m <> e ->
  let h1 := var_bound_mem T mo h m e in
  var_bound_mem T mo h1 m e = h1 /\ var_bound_value T value mo h1 m e = var_bound_value T value mo h m e.
Proof.
  intros T value mo h m e Hm Hn h1.
  assert (E : var_bound_mem T mo h1 m e = h1).
  { subst h1. destruct mo; cbn [var_bound_mem]; try congruence;
      rewrite load_store_other by congruence; apply store_store. }
  split; [exact E|]. subst h1. destruct mo; cbn [var_bound_value]; try congruence; first [reflexivity | now rewrite E].
Qed.

(** stm_yv_bouchard: the means are what they were if none is more than T below the
    largest of its document. *)
Definition all_finite (r : row) : Prop := Forall (fun x => exists v, x = Fin v) r.

Lemma row_max_fin : forall r, all_finite r -> r <> [] -> exists v, row_max r = Fin v /\ Forall (fun x => forall w, x = Fin w -> (w <= v)%R) r /\ In (Fin v) r.
Proof.
  induction r as [|x r IH]; intros Hf Hne; [congruence|].
  inversion Hf as [|y l [v Hv] Hl]; subst.
  destruct r as [|y r].
  - exists v. cbn. repeat split; auto. constructor; auto. intros w [= <-]. lra.
  - destruct (IH Hl ltac:(discriminate)) as (u & Hu & Hall & Hin). exists (Rmax v u).
    change (row_max (Fin v :: y :: r)) with (num_max (Fin v) (row_max (y :: r))). rewrite Hu. cbn [num_max].
    repeat split; auto.
    + constructor.
      * intros w [= <-]. apply Rmax_l.
      * eapply Forall_impl; [|exact Hall]. intros a Ha w Hw. specialize (Ha w Hw). pose proof (Rmax_r v u). lra.
    + unfold Rmax. destruct (Rle_dec v u); [right; exact Hin|left; reflexivity].
Qed.

Definition round_trip (T : R) (r : row) : row :=
  map (fun x => num_add (num_log (num_exp T (num_sub x (row_max r)))) (row_max r)) r.

Lemma entry_back : forall T w v, (v - w <= T)%R ->
  num_add (num_log (num_exp T (num_sub (Fin w) (Fin v)))) (Fin v) = Fin w.
Proof.
  intros T w v H. cbn [num_sub num_exp]. destruct (rltb (w - v) (- T)) eqn:E.
  - apply rltb_true in E. lra.
  - cbn [num_log]. destruct (rltb 0 (exp (w - v))) eqn:E2.
    + rewrite ln_exp. cbn [num_add]. f_equal. lra.
    + apply rltb_false in E2. pose proof (exp_pos (w - v)). lra.
Qed.

Lemma entry_lost : forall T w v, (T < v - w)%R ->
  num_add (num_log (num_exp T (num_sub (Fin w) (Fin v)))) (Fin v) = NInf.
Proof.
  intros T w v H. cbn [num_sub num_exp]. destruct (rltb (w - v) (- T)) eqn:E.
  - cbn [num_log]. destruct (rltb 0 0) eqn:E2; [apply rltb_true in E2; lra|reflexivity].
  - apply rltb_false in E. lra.
Qed.

(** The spread of a row of means. *)
Definition within (T : R) (r : row) : Prop := forall x y, In (Fin x) r -> In (Fin y) r -> (y - x <= T)%R.

Lemma round_trip_id : forall T r, all_finite r -> within T r -> round_trip T r = r.
Proof.
  intros T r Hf Hw. destruct r as [|x0 r0]; [reflexivity|].
  destruct (row_max_fin (x0 :: r0) Hf ltac:(discriminate)) as (v & Hv & Hall & Hin).
  unfold round_trip. rewrite Hv. rewrite <- (map_id (x0 :: r0)) at 2. apply map_ext_in. intros x Hx.
  unfold all_finite in Hf. rewrite Forall_forall in Hf. destruct (Hf x Hx) as [w ->]. apply entry_back. apply Hw; auto.
Qed.

Lemma round_trip_within : forall T r, all_finite r -> round_trip T r = r -> within T r.
Proof.
  intros T r Hf Hr. destruct r as [|x0 r0]; [intros x y []|].
  destruct (row_max_fin (x0 :: r0) Hf ltac:(discriminate)) as (v & Hv & Hall & Hin). intros x y Hx Hy.
  rewrite Forall_forall in Hall. assert (y <= v)%R by (apply (Hall _ Hy); reflexivity).
  destruct (Rle_dec (v - x) T) as [H1|H1]; [lra|]. exfalso.
  apply Rnot_le_lt in H1. pose proof (entry_lost T x v H1) as Hl. unfold round_trip in Hr. rewrite Hv in Hr.
  destruct (In_nth _ _ NInf Hx) as (i & Hi & Hnth).
  assert (E : nth i (map (fun x => num_add (num_log (num_exp T (num_sub x (Fin v)))) (Fin v)) (x0 :: r0)) NInf = NInf).
  { rewrite nth_indep with (d' := (fun x => num_add (num_log (num_exp T (num_sub x (Fin v)))) (Fin v)) NInf)
      by (rewrite map_length; exact Hi).
    rewrite (map_nth (fun x => num_add (num_log (num_exp T (num_sub x (Fin v)))) (Fin v))). rewrite Hnth. exact Hl. }
  rewrite Hr in E. rewrite Hnth in E. discriminate.
Qed.

Theorem C243_means_reset : forall T h m e,
  m < length h -> Forall all_finite (load h m) ->
  (var_bound_mem T StmYv h m e = h <-> Forall (within T) (load h m)).
Proof.
  intros T h m e Hm Hf. cbn [var_bound_mem]. split.
  - intros H. assert (E : exp_log T (load h m) = load h m).
    { rewrite <- (load_store_same h m (exp_log T (load h m)) Hm). now rewrite H. }
    rewrite Forall_forall in *. intros r Hr. apply round_trip_within; auto.
    unfold exp_log in E. change (map (round_trip T) (load h m) = load h m) in E.
    destruct (In_nth _ _ [] Hr) as (i & Hi & Hnth).
    assert (E2 : nth i (map (round_trip T) (load h m)) (round_trip T []) = nth i (load h m) []) by now rewrite E.
    rewrite map_nth in E2. change row with (list num) in *. now rewrite Hnth in E2.
  - intros Hw. assert (E : exp_log T (load h m) = load h m).
    { unfold exp_log. change (map (round_trip T) (load h m) = load h m). rewrite <- (map_id (load h m)) at 2. apply map_ext_in.
      intros r Hr. rewrite Forall_forall in *. apply round_trip_id; auto. }
    rewrite E. apply store_load.
Qed.

(** The claim of the documentation: values are reset to their initial values. *)
Definition values_are_reset : Prop := forall T mo h m e, (0 < T)%R -> m < length h -> e < length h -> m <> e ->
  Forall all_finite (load h m) -> var_bound_mem T mo h m e = h.

(** ctm_bouchard, ctm_bohning and stm_yv_bohning leave the exponentials of the means in the
    array of exponentials, whatever was there. *)
Theorem C243_exponentials_kept : forall T mo h m e,
  mo = Ctm \/ mo = CtmBohning \/ mo = StmYvBohning -> e < length h ->
  load (var_bound_mem T mo h m e) e = exp_shift T (load h m).
Proof. intros T mo h m e [-> | [-> | ->]] He; cbn [var_bound_mem]; now apply load_store_same. Qed.

Theorem C243_reset_refuted : ~ values_are_reset.
Proof.
  intros H.
  specialize (H 700%R CtmBohning [[[Fin 0]]; [[Fin 5]]] 0 1 ltac:(lra) ltac:(cbn; lia) ltac:(cbn; lia) ltac:(lia)
    ltac:(constructor; [constructor; [now exists 0%R|constructor]|constructor])).
  assert (E : load (var_bound_mem 700 CtmBohning [[[Fin 0]]; [[Fin 5]]] 0 1) 1 = [[Fin 5]]) by now rewrite H.
  rewrite C243_exponentials_kept in E by (auto; cbn; lia). cbn in E.
  assert (E2 : rltb (0 - 0) (- (700)) = false).
  { destruct (rltb (0 - 0) (- (700))) eqn:E2; [apply rltb_true in E2; lra|reflexivity]. }
  rewrite E2 in E. injection E as E3. rewrite Rminus_0_r, exp_0 in E3. lra.
Qed.

(** For every threshold of underflow there are finite means that stm_yv_bouchard loses. *)
Theorem C243_means_lost_refuted : forall T, (0 < T)%R -> exists h m e,
  m < length h /\ e < length h /\ m <> e /\ Forall all_finite (load h m) /\
  In NInf (nth 0 (load (var_bound_mem T StmYv h m e) m) []).
Proof.
  intros T HT. exists [[[Fin 0; Fin (- T - 1)]]; [[Fin 1; Fin 1]]], 0, 1.
  cbn [length load nth]. repeat split; try lia.
  - constructor; [|constructor]. constructor; [now eexists|]. constructor; [now eexists|constructor].
  - cbn [var_bound_mem store load nth exp_log map]. right. left.
    assert (E : row_max [Fin 0; Fin (- T - 1)] = Fin 0).
    { cbn. f_equal. apply Rmax_left. lra. }
    rewrite E. apply entry_lost. lra.
Qed.

Example C243_case : var_bound_mem 700 StmYv [[[Fin 3; Fin (-20)]]; [[Fin 1; Fin 1]]] 0 1 = [[[Fin 3; Fin (-20)]]; [[Fin 1; Fin 1]]].
Proof.
  apply C243_means_reset.
  - cbn. lia.
  - repeat constructor; eauto.
  - constructor; [|constructor]. intros x y [[= <-]|[[= <-]|[]]] [[= <-]|[[= <-]|[]]]; lra.
Qed.

(** ** C244: the lines of a training *)
Theorem C244_own_bounds : forall T value debug mo steps s before before',
  mo = StmYvBohning \/ mo = FakeOnline ->
  train T value debug mo steps s before = train T value debug mo steps s before' /\
  query T value debug mo steps s before = query T value debug mo steps s before'.
Proof. intros T value debug mo steps s before before' [-> | ->]; split; reflexivity. Qed.

(** The lines after the first compare the bounds of this training, for all modules: the
    [i]-th difference is between the [i]-th and the bound before it. *)
Fixpoint compared (old : bnd) (l : list line) : Prop :=
  match l with
  | [] => True
  | (b, d) :: t => d = (if is_zero old then None else Some (bnd_sub b old)) /\ compared b t
  end.

Lemma debug_call_line : forall T value mo c s old s' b l, debug_call T value mo c s old = Ok (s', b, l) ->
  l = (b, if is_zero old then None else Some (bnd_sub b old)).
Proof.
  intros T value mo c [h m e] old s' b l.
  destruct mo; unfold debug_call; cbn [mem means_at exp_at var_bound_mem];
    try (destruct (attr_words c); [|discriminate]; cbn [bind]);
    try (destruct (var_bound_value T value _ _ _ _); try (destruct (int_of _); [|discriminate]); cbn [bind]);
    intros H; try discriminate; injection H as _ <- <-; reflexivity.
Qed.

Lemma run_lines : forall T value mo c steps s old out s' b l,
  run T value true mo c steps s old out = Ok (s', b, l) ->
  exists l', l = out ++ l' /\ compared old l' /\ length l' = length steps.
Proof.
  intros T value mo c. induction steps as [|f fs IH]; intros s old out s' b l H; cbn [run] in H.
  - injection H as _ _ <-. exists []. rewrite app_nil_r. cbn. auto.
  - destruct (f s) as [s1|]; [|discriminate]. cbn [bind] in H. unfold debug_fn at 1 in H.
    destruct (debug_call T value mo c s1 old) as [[[s2 b2] l2]|] eqn:Ed; [|discriminate]. cbn [bind] in H.
    apply debug_call_line in Ed. destruct (IH _ _ _ _ _ _ H) as (l' & -> & Hc & Hl).
    exists (l2 :: l'). rewrite <- app_assoc. cbn [app length]. split; [reflexivity|]. split; [|now rewrite Hl].
    subst l2. cbn [compared]. auto.
Qed.

Theorem C244_lines : forall T value mo steps s before s' b l,
  train T value true mo steps s before = Ok (s', b, l) ->
  compared (first_old mo before) l /\ length l = length steps.
Proof.
  intros T value mo steps s before s' b l H. destruct (run_lines _ _ _ _ _ _ _ _ _ _ _ H) as (l' & E & Hc & Hl).
  cbn [app] in E. now subst l'.
Qed.

(** The claim: what a training prints does not depend on what was trained before. *)
Definition lines_are_own : Prop := forall T value mo steps s before before' s1 b1 l1 s2 b2 l2,
  train T value true mo steps s before = Ok (s1, b1, l1) -> train T value true mo steps s before' = Ok (s2, b2, l2) -> l1 = l2.

Theorem C244_own_refuted : ~ lines_are_own.
Proof.
  intros H.
  assert (Hf : forall h : heap, finite ((fun (_ : modul) (_ : heap) => BFin 2) CtmBohning h)) by (intros h; now exists 2%R).
  destruct (C242_training_finishes 700 (fun _ _ => BFin 2) CtmBohning [fun s => Ok s] (mkState [] 0 0) (BFin 0) _ _ _
              ltac:(discriminate) Hf ltac:(now eexists) eq_refl) as (b1 & l1 & E1 & _).
  destruct (C242_training_finishes 700 (fun _ _ => BFin 2) CtmBohning [fun s => Ok s] (mkState [] 0 0) (BFin 1) _ _ _
              ltac:(discriminate) Hf ltac:(now eexists) eq_refl) as (b2 & l2 & E2 & _).
  pose proof (H _ _ _ _ _ _ _ _ _ _ _ _ _ E1 E2) as El. subst l2.
  destruct (C244_lines _ _ _ _ _ _ _ _ _ E1) as [H1 Hl]. destruct (C244_lines _ _ _ _ _ _ _ _ _ E2) as [H2 _].
  destruct l1 as [|[b d] [|? ?]]; cbn [length] in Hl; try lia. cbn [compared first_old is_zero] in H1, H2.
  destruct H1 as [D1 _]. destruct H2 as [D2 _].
  destruct (Req_EM_T 0 0) as [_|N]; [|lra]. destruct (Req_EM_T 1 0) as [N|_]; [lra|]. congruence.
Qed.

Example C244_case : exists s b, train 700 (fun _ _ => BFin 2) true StmYvBohning [fun s => Ok s; fun s => Ok s] (mkState [] 0 0) BNan
  = Ok (s, b, [(BFin 2, None); (BFin 2, Some (BFin (2 - 2)))]).
Proof.
  do 2 eexists. unfold train. cbn [run bind first_old train_corpus debug_fn debug_call mem var_bound_value bnd_sub int_of is_zero app length means_at].
  destruct (Req_EM_T 0 0) as [_|N]; [|lra].
  cbn [run bind first_old train_corpus debug_fn debug_call mem var_bound_value bnd_sub int_of is_zero app length means_at].
  destruct (Req_EM_T 2 0) as [N|_]; [lra|]. reflexivity.
Qed.

Print Assumptions C242_same_result.
Print Assumptions C242_same_answer.
Print Assumptions C242_training_finishes.
Print Assumptions C242_query_finishes.
Print Assumptions C242_ctm_finishes.
Print Assumptions C242_query_stops.
Print Assumptions C242_stm_yv_stops.
Print Assumptions C242_infinite_stops.
Print Assumptions C242_harmless_refuted.
Print Assumptions C243_other_arrays.
Print Assumptions C243_no_arrays.
Print Assumptions C243_serial.
Print Assumptions C243_means_reset.
Print Assumptions C243_exponentials_kept.
Print Assumptions C243_reset_refuted.
Print Assumptions C243_means_lost_refuted.
Print Assumptions C244_own_bounds.
Print Assumptions C244_lines.
Print Assumptions C244_own_refuted.
