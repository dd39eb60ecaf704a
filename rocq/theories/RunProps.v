(** * C47, C48, C99-C104: the evaluation drivers. *)
From Coq Require Import List ZArith QArith Qfield Lqa Lia Arith Bool Permutation Sorted.
From Verif Require Import Base SparseModel SparseProofs DatasetModel EvalModel EvalSpec EvalProofs EvalGroups EvalProps PartModel PartCols PartProps VecProofs RunModel.
Import ListNotations.
Open Scope nat_scope.

Lemma NoDup_map_inj' {A B} (f : A -> B) l : (forall x y, In x l -> In y l -> f x = f y -> x = y) ->
  NoDup l -> NoDup (map f l).
Proof.
  induction l as [|a l IH]; intros H N; [constructor|]. inversion N; subst. cbn [map]. constructor.
  - intros X. apply in_map_iff in X as (b & E & Hb). apply H2. rewrite <- (H b a); auto; [right; exact Hb|left; reflexivity].
  - apply IH; auto. intros x y Hx Hy. apply H; right; assumption.
Qed.

Lemma NoDup_app_l {A} (a b : list A) : NoDup (a ++ b) -> NoDup a.
Proof.
  induction a as [|x a IH]; intros H; [constructor|]. inversion H; subst. constructor; [|apply IH; assumption].
  intros X. apply H2, in_or_app. left. exact X.
Qed.
Lemma NoDup_app_r {A} (a b : list A) : NoDup (a ++ b) -> NoDup b.
Proof. induction a as [|x a IH]; intros H; [exact H|]. inversion H; subst. apply IH; assumption. Qed.

Lemma In_skipn' {A} (x : A) n l : In x (skipn n l) -> In x l.
Proof. intros H. rewrite <- (firstn_skipn n l). apply in_or_app. right. exact H. Qed.
Lemma In_firstn {A} (x : A) n l : In x (firstn n l) -> In x l.
Proof. intros H. rewrite <- (firstn_skipn n l). apply in_or_app. left. exact H. Qed.

(** ** Specification: which folds finish, independent of the loop. *)
Definition done (work : nat -> res fold_stats) (f : nat) : bool := is_ok (work f).
Definition stats (work : nat -> res fold_stats) (f : nat) : fold_stats :=
  match work f with Ok s => s | Raise _ => mkFold 0 0 0 0 end.

(** The folds among the first [m] that finish, in order. *)
Definition finishing (work : nat -> res fold_stats) (m : nat) : list nat := filter (done work) (seq 0 m).

Definition sumQ (f : fold_stats -> Q) (work : nat -> res fold_stats) (m : nat) : Q :=
  fold_left (fun a x => a + f (stats work x))%Q (finishing work m) 0%Q.

(** Files of the finishing folds whose saving succeeds. *)
Definition saved (save : option (nat -> res nat)) (fs : list nat) : list nat :=
  match save with
  | None => []
  | Some sv => flat_map (fun f => match sv f with Ok n => [n] | Raise _ => [] end) fs
  end.

Lemma finishing_S work m : finishing work (S m) =
  finishing work m ++ (if done work m then [m] else []).
Proof. unfold finishing. rewrite seq_S, filter_app. cbn. destruct (done work m); reflexivity. Qed.

Lemma saved_app save a b : saved save (a ++ b) = saved save a ++ saved save b.
Proof. destruct save; cbn [saved]; [apply flat_map_app|reflexivity]. Qed.

Lemma sumQ_S f work m : sumQ f work (S m) =
  if done work m then (sumQ f work m + f (stats work m))%Q else sumQ f work m.
Proof.
  unfold sumQ. rewrite finishing_S. destruct (done work m); [|rewrite app_nil_r; reflexivity].
  rewrite fold_left_app. reflexivity.
Qed.

(** State after the first [m] folds have been visited. *)
Definition state_after (work : nat -> res fold_stats) (save : option (nat -> res nat)) (m : nat) : totals :=
  mkTotals (Z.of_nat (length (finishing work m)))
           (sumQ train_like work m) (sumQ train_words work m) (sumQ query_like work m) (sumQ query_words work m)
           (saved save (finishing work m)) (seq 0 m).

Lemma perp_fold_state work save m :
  perp_fold work save m (visit m (state_after work save m)) = state_after work save (S m).
Proof.
  unfold perp_fold, state_after, visit. cbn [finished sum_train_like sum_train_words sum_query_like sum_query_words files visited].
  rewrite !sumQ_S, !finishing_S, seq_S. unfold done, stats. destruct (work m) as [s|e] eqn:E; cbn [is_ok].
  - unfold add_fold, with_files. cbn [finished sum_train_like sum_train_words sum_query_like sum_query_words files visited].
    rewrite app_length, saved_app. cbn [length]. f_equal; [lia|].
    destruct save as [sv|]; cbn [save_file saved]; [|reflexivity]. cbn [flat_map]. destruct (sv m); cbn [fst]; rewrite ?app_nil_r; reflexivity.
  - rewrite !app_nil_r. reflexivity.
Qed.

Lemma perp_loop_state work save limit : forall todo fold,
  exists m, fold <= m <= fold + todo /\
    perp_loop work save limit todo fold (state_after work save fold) = state_after work save m /\
    (m = fold + todo \/ (limit <= Z.of_nat (length (finishing work m)))%Z) /\
    (forall j, fold <= j < m -> (Z.of_nat (length (finishing work j)) < limit)%Z).
Proof.
  induction todo as [|todo IH]; intros fold.
  - exists fold. cbn [perp_loop]. repeat split; try lia.
  - cbn [perp_loop]. cbn [finished state_after]. destruct (Z.ltb_spec (Z.of_nat (length (finishing work fold))) limit) as [L|L].
    + rewrite perp_fold_state. destruct (IH (S fold)) as (m & Hm & E & Hs & Hj). exists m. rewrite E.
      repeat split; try lia. intros j Hj'. destruct (Nat.eq_dec j fold) as [->|]; [exact L|apply Hj; lia].
    + exists fold. repeat split; try lia.
Qed.

(** ** C47.  [limit] is the requested number of folds; the folds visited are the
    first [m]; everything reported is over those of them that finish. *)
Theorem C47_totals_are_of_finished_folds : forall num_folds fold_run_count work whole save t,
  num_folds <> 1%Z ->
  cv_perplexity num_folds fold_run_count work whole save = Ok t ->
  let limit := if (fold_run_count <? 1)%Z then num_folds else fold_run_count in
  exists m, (Z.of_nat m <= num_folds)%Z /\
    visited t = seq 0 m /\
    finished t = Z.of_nat (length (finishing work m)) /\ (1 <= finished t <= limit)%Z /\
    sum_train_like t = sumQ train_like work m /\ sum_train_words t = sumQ train_words work m /\
    sum_query_like t = sumQ query_like work m /\ sum_query_words t = sumQ query_words work m /\
    files t = saved save (finishing work m) /\
    (Z.of_nat m = num_folds \/ finished t = limit).
Proof.
  intros nf rc work whole save t Hn H limit. unfold cv_perplexity in H.
  destruct (Z.eqb_spec nf 1) as [?|_]; [lia|]. change (run_limit nf rc) with limit in H.
  replace no_totals with (state_after work save 0) in H by (destruct save; reflexivity).
  destruct (perp_loop_state work save limit (Z.to_nat nf) 0) as (m & Hm & E & Hs & Hj).
  rewrite E in H. destruct (Z.eqb_spec (finished (state_after work save m)) 0) as [|Hf]; [discriminate|].
  assert (Ht : t = state_after work save m) by congruence. subst t.
  cbn [state_after visited finished sum_train_like sum_train_words sum_query_like sum_query_words files] in *.
  assert (B : (Z.of_nat (length (finishing work m)) <= limit)%Z).
  { destruct m as [|m]; [cbn in Hf; lia|]. specialize (Hj m ltac:(lia)). rewrite finishing_S, app_length.
    destruct (done work m); cbn [length]; lia. }
  assert (1 <= m) by (destruct m; [cbn in Hf; lia|lia]).
  exists m. repeat split; try lia.
Qed.

(** The run fails exactly if no fold finishes, with a division by zero. *)
Theorem C47_fails_iff_no_fold_finishes : forall num_folds fold_run_count work whole save,
  num_folds <> 1%Z ->
  (forall f, (Z.of_nat f < num_folds)%Z -> done work f = false) <->
  cv_perplexity num_folds fold_run_count work whole save = Raise ZeroDivisionError.
Proof.
  intros nf rc work whole save Hn. unfold cv_perplexity.
  destruct (Z.eqb_spec nf 1) as [?|_]; [lia|].
  set (limit := run_limit nf rc).
  replace no_totals with (state_after work save 0) by (destruct save; reflexivity).
  destruct (perp_loop_state work save limit (Z.to_nat nf) 0) as (m & Hm & E & Hs & Hj). rewrite E.
  cbn [state_after finished]. split.
  - intros H. assert (F : finishing work m = []).
    { unfold finishing. destruct (filter (done work) (seq 0 m)) as [|x l] eqn:Ef; [reflexivity|].
      assert (In x (filter (done work) (seq 0 m))) as Hx by (rewrite Ef; left; reflexivity).
      apply filter_In in Hx as [Hi Hd]. apply in_seq in Hi. rewrite H in Hd by lia. discriminate. }
    rewrite F. reflexivity.
  - intros H f Hf. destruct (Z.eqb_spec (Z.of_nat (length (finishing work m))) 0) as [Z0|]; [|discriminate].
    assert (M : m = 0 + Z.to_nat nf).
    { destruct Hs as [?|Hs]; [assumption|]. unfold limit, run_limit in Hs. destruct (Z.ltb_spec rc 1); lia. }
    destruct (done work f) eqn:D; [|reflexivity]. exfalso.
    assert (In f (finishing work m)) as Hi by (apply filter_In; split; [apply in_seq; lia|exact D]).
    destruct (finishing work m); [destruct Hi|cbn [length] in Z0; lia].
Qed.

Example C47_example :
  let work f := match f with 1 => Raise ValueError | _ => Ok (mkFold (qnat f) 1 (qnat (2 * f)) 2) end in
  let save := Some (fun f => if f =? 2 then Raise OtherError else Ok (10 + f)) in
  match cv_perplexity 5 3 work (Raise OtherError) save with
  | Ok t => visited t = [0; 1; 2; 3] /\ finished t = 3%Z /\ (sum_query_like t == 10)%Q /\ files t = [10; 13]
  | Raise _ => False
  end.
Proof. vm_compute. repeat split; reflexivity. Qed.

Example C47_failing_example :
  cv_perplexity 2 0 (fun _ => Raise ValueError) (Raise OtherError) None = Raise ZeroDivisionError.
Proof. reflexivity. Qed.

(** ** C99: "if folds == 1 ... the results are not saved to disk, even if
    model_dir is not None". *)
Theorem C99_single_fold_reports_training_data_and_saves : forall rc work like words sv n,
  sv 0 = Ok n ->
  cv_perplexity 1 rc work (Ok (like, words)) (Some sv) = Ok (mkTotals 1 like words 0 0 [n] []).
Proof. intros rc work like words sv n H. unfold cv_perplexity. cbn. rewrite H. reflexivity. Qed.

Theorem C99_single_fold_not_saved_refuted : exists rc work whole sv t,
  cv_perplexity 1 rc work whole (Some sv) = Ok t /\ files t <> [].
Proof.
  exists 0%Z, (fun _ => Raise OtherError), (Ok (1, 1)%Q), (fun f => Ok f), (mkTotals 1 1 1 0 0 [0] []).
  split; [reflexivity|discriminate].
Qed.

(** ** C48 *)
Lemma hashtag_loop_all work save limit : (0 < limit)%Z -> forall todo fold fs vs,
  hashtag_loop work save 0 limit todo fold fs vs =
  (fs ++ saved save (filter (fun f => is_ok (work f)) (seq fold todo)), vs ++ seq fold todo).
Proof.
  intros Hl. induction todo as [|todo IH]; intros fold fs vs; cbn [hashtag_loop].
  - cbn. destruct save; cbn [saved flat_map]; rewrite !app_nil_r; reflexivity.
  - destruct (Z.ltb_spec 0 limit) as [_|?]; [|lia]. rewrite IH. cbn [seq filter]. f_equal.
    + destruct (work fold) as [[]|e]; cbn [is_ok]; [|reflexivity].
      change (fold :: filter (fun f => is_ok (work f)) (seq (S fold) todo))
        with ([fold] ++ filter (fun f => is_ok (work f)) (seq (S fold) todo)).
      rewrite saved_app, app_assoc. f_equal. destruct save as [sv|]; cbn [save_file saved flat_map].
      * destruct (sv fold); cbn [fst]; rewrite ?app_nil_r; reflexivity.
      * rewrite app_nil_r. reflexivity.
    + rewrite <- app_assoc. reflexivity.
Qed.

(** Whatever number of folds is requested, all of them are evaluated. *)
Theorem C48_every_fold_is_evaluated : forall num_folds fold_run_count work save,
  (1 < num_folds)%Z ->
  cv_hashtags num_folds fold_run_count work save =
  Ok (saved save (filter (fun f => is_ok (work f)) (seq 0 (Z.to_nat num_folds))), seq 0 (Z.to_nat num_folds)).
Proof.
  intros nf rc work save H. unfold cv_hashtags. destruct (Z.leb_spec nf 1); [lia|].
  rewrite hashtag_loop_all; [reflexivity|]. unfold run_limit. destruct (Z.ltb_spec rc 1); lia.
Qed.

Theorem C48_truncation_refuted : exists num_folds fold_run_count work save fs vs,
  (1 < num_folds)%Z /\ (1 <= fold_run_count)%Z /\
  cv_hashtags num_folds fold_run_count work save = Ok (fs, vs) /\
  (fold_run_count < Z.of_nat (length (filter (fun f => is_ok (work f)) vs)))%Z.
Proof. exists 3%Z, 1%Z, (fun _ => Ok tt), None, [], [0; 1; 2]. repeat split; reflexivity. Qed.

(** ** C100: the number of folds run by the drivers without exception handling.
    [folds_in_order] runs the given folds one after the other. *)
Definition one_fold {A} (step : option A -> nat -> res A) (save : option (nat -> res nat))
           (s : option A * list nat) (f : nat) : res (option A * list nat) :=
  do a <- step (fst s) f;
  do n <- match save with None => Ok [] | Some sv => do n <- sv f; Ok [n] end;
  Ok (Some a, snd s ++ n).

Definition folds_in_order {A} (step : option A -> nat -> res A) (save : option (nat -> res nat)) (fs : list nat)
  : res (option A * list nat) := foldM (one_fold step save) (None, []) fs.

Lemma seq_folds_foldM {A} (step : option A -> nat -> res A) save : forall todo st fs,
  seq_folds step save todo st fs = foldM (one_fold step save) (st, fs) todo.
Proof.
  induction todo as [|f todo IH]; intros st fs; cbn [seq_folds foldM]; [reflexivity|].
  unfold one_fold at 1. cbn [fst snd]. destruct (step st f) as [a|e]; cbn [bind]; [|reflexivity].
  destruct save as [sv|]; cbn [bind].
  - destruct (sv f) as [n|e]; cbn [bind]; [apply IH|reflexivity].
  - rewrite app_nil_r. apply IH.
Qed.

Lemma break_folds_foldM {A} (step : option A -> nat -> res A) save target : forall todo count st fs,
  (0 <= count)%Z ->
  break_folds step save target count todo st fs =
  foldM (one_fold step save) (st, fs) (if (count <? target)%Z then firstn (Z.to_nat (target - count)) todo else todo).
Proof.
  induction todo as [|f todo IH]; intros count st fs Hc; cbn [break_folds].
  - destruct (count <? target)%Z; [rewrite firstn_nil|]; reflexivity.
  - assert (R : (if (count <? target)%Z then firstn (Z.to_nat (target - count)) (f :: todo) else f :: todo) =
                f :: (if (count <? target)%Z then firstn (Z.to_nat (target - count) - 1) todo else todo)).
    { destruct (Z.ltb_spec count target) as [L|L]; [|reflexivity].
      replace (Z.to_nat (target - count)) with (S (Z.to_nat (target - count) - 1)) at 1 by lia. reflexivity. }
    rewrite R. cbn [foldM]. unfold one_fold at 1. cbn [fst snd]. destruct (step st f) as [a|e]; cbn [bind]; [|reflexivity].
    assert (G : forall fs', (if (count + 1 =? target)%Z then Ok (Some a, fs')
              else break_folds step save target (count + 1) todo (Some a) fs') =
              foldM (one_fold step save) (Some a, fs') (if (count <? target)%Z then firstn (Z.to_nat (target - count) - 1) todo else todo)).
    { intros fs'. destruct (Z.eqb_spec (count + 1) target) as [E|E].
      - destruct (Z.ltb_spec count target); [|lia]. replace (Z.to_nat (target - count) - 1) with 0 by lia. reflexivity.
      - rewrite IH by lia. destruct (Z.ltb_spec count target); destruct (Z.ltb_spec (count + 1) target); try lia; [|reflexivity].
        replace (Z.to_nat (target - (count + 1))) with (Z.to_nat (target - count) - 1) by lia. reflexivity. }
    destruct save as [sv|]; cbn [bind].
    + destruct (sv f) as [n|e]; cbn [bind]; [apply G|reflexivity].
    + rewrite app_nil_r. apply G.
Qed.

Lemma firstn_seq' : forall n a m, firstn n (seq a m) = seq a (Nat.min n m).
Proof. induction n as [|n IH]; intros a [|m]; cbn; try reflexivity. rewrite IH. reflexivity. Qed.

(** The in-sample link evaluation runs the number of folds requested, and all of
    them for the default. *)
Theorem C100_insample_runs_requested_folds : forall (A : Type) folds target (step : option A -> nat -> res A) save,
  (1 < folds)%Z ->
  cv_insample folds target step save =
  report (folds_in_order step save
    (seq 0 (match target with
            | Some t => if (1 <=? t)%Z then Nat.min (Z.to_nat t) (Z.to_nat folds) else Z.to_nat folds
            | None => Z.to_nat folds
            end))).
Proof.
  intros A folds target step save H. unfold cv_insample. destruct (Z.leb_spec folds 1); [lia|].
  f_equal. unfold folds_in_order. destruct target as [t|].
  - rewrite break_folds_foldM by lia. f_equal.
    destruct (Z.ltb_spec 0 t); destruct (Z.leb_spec 1 t); try lia; [|reflexivity].
    rewrite Z.sub_0_r. rewrite firstn_seq'. reflexivity.
  - rewrite break_folds_foldM by lia. f_equal. destruct (Z.ltb_spec 0 folds); [|lia].
    rewrite firstn_seq'. f_equal. lia.
Qed.

(** The tag evaluation runs the folds 0 ... target - 1, whether or not there are
    that many; the default runs none and fails. *)
Theorem C100_tags_run_target_folds : forall (A : Type) num_folds target (step : option A -> nat -> res A) save,
  (1 < num_folds)%Z ->
  cv_tags num_folds target step save =
  report (folds_in_order step save (seq 0 (Z.to_nat (match target with Some t => t | None => num_folds end)))).
Proof.
  intros A nf target step save H. unfold cv_tags. destruct (Z.leb_spec nf 1); [lia|].
  rewrite seq_folds_foldM. reflexivity.
Qed.

Theorem C100_tags_with_default_option_raise : forall (A : Type) num_folds (step : option A -> nat -> res A) save,
  (1 < num_folds)%Z ->
  cv_tags num_folds (Some truncate_folds_default) step save = Raise AttributeError.
Proof. intros. rewrite C100_tags_run_target_folds by assumption. reflexivity. Qed.

Theorem C100_default_runs_all_folds_refuted : exists num_folds (step : option (list nat) -> nat -> res (list nat)),
  (1 < num_folds)%Z /\
  cv_insample num_folds (Some truncate_folds_default) step None = Ok ([0; 1; 2], []) /\
  cv_tags num_folds (Some truncate_folds_default) step None = Raise AttributeError.
Proof.
  exists 3%Z, (fun st f => Ok (match st with None => [] | Some l => l end ++ [f])). repeat split; reflexivity.
Qed.

Example C100_example :
  let step (st : option (list nat)) f := Ok (match st with None => [] | Some l => l end ++ [f]) in
  cv_insample 5 (Some 3%Z) step (Some (fun f => Ok (100 + f))) = Ok ([0; 1; 2], [100; 101; 102]) /\
  cv_tags 3 (Some 2%Z) step None = Ok ([0; 1], []).
Proof. split; reflexivity. Qed.

(** ** C101: "In the held-out set, the hashtags are deleted." *)
Lemma soft_row_keeps cols draw : (forall n, 0 <= draw n)%Q -> forall r k,
  fst (fst (soft_row cols draw 0 k r)) = r /\ forall j, sget (snd (fst (soft_row cols draw 0 k r))) j = 0%Z.
Proof.
  intros Hd. induction r as [|[c v] r IH]; intros k; cbn [soft_row].
  - split; reflexivity.
  - assert (M : fst (soft_move cols draw 0 k c) = false).
    { unfold soft_move. change (Qle_bool cutoff 0) with false. cbn iota. destruct (existsb (Nat.eqb c) cols); [|reflexivity].
      cbn [fst]. unfold Qlt_bool. apply negb_false_iff, Qle_bool_iff, Hd. }
    destruct (soft_move cols draw 0 k c) as [mv k']. cbn [fst] in M. subst mv. cbn iota.
    specialize (IH k'). destruct (soft_row cols draw 0 k' r) as [[a b] k'']. cbn [fst snd] in *.
    destruct IH as [-> Hb]. split; [reflexivity|]. intros j. rewrite sget_cons. cbn [fst snd].
    rewrite Hb. destruct (c =? j); reflexivity.
Qed.

Lemma sget_nz r j : sget (filter (fun e => negb (snd e =? 0)%Z) r) j = sget r j.
Proof.
  induction r as [|[c v] r IH]; [reflexivity|]. cbn [filter snd]. rewrite (sget_cons (c, v) r). cbn [fst snd].
  destruct (Z.eqb_spec v 0) as [->|]; cbn [negb].
  - rewrite IH. destruct (c =? j); reflexivity.
  - rewrite sget_cons. cbn [fst snd]. rewrite IH. reflexivity.
Qed.

Lemma sumZ_zero {A} (f : A -> Z) l : (forall x, In x l -> f x = 0%Z) -> sumZ (map f l) = 0%Z.
Proof.
  induction l as [|a l IH]; intros H; [reflexivity|]. cbn [map sumZ]. rewrite (H a), IH; [reflexivity| |left; reflexivity].
  intros x Hx. apply H. right. exact Hx.
Qed.

(** With the value that is passed nothing is deleted and nothing is left to be
    predicted: every precision and recall is zero whatever the model. *)
Theorem C101_no_hashtag_deleted : forall tags draw words L R,
  (forall n, 0 <= draw n)%Q ->
  hashtag_split tags draw hashtag_train_prop_passed words = (L, R) ->
  (forall i j, mget L i j = mget words i j) /\ (forall i j, mget R i j = 0%Z) /\
  forall order hi m, (fst (hashtag_scores R order hi m) == 0)%Q /\ (snd (hashtag_scores R order hi m) == 0)%Q.
Proof.
  intros tags draw words L R Hd H. unfold hashtag_split, hashtag_train_prop_passed in H.
  assert (E : forall i j, mget L i j = mget words i j /\ mget R i j = 0%Z).
  { intros i j. destruct (soft_split_row tags draw 0 words L R i H) as (_ & _ & _ & _ & G).
    unfold mget at 2. destruct (nth_error (srows words) i) as [r|]; [|exact (G j)].
    destruct G as (k & G & _). destruct (G j) as [-> ->].
    destruct (soft_row_keeps tags draw Hd r k) as [-> Hz]. split; [reflexivity|apply Hz]. }
  split; [intros; apply E|]. split; [intros; apply E|].
  intros order hi m. unfold hashtag_scores. cbn [fst snd].
  rewrite (sumZ_zero (fun i => mget R i hi) (rev (last_of m order))) by (intros; apply E).
  split; unfold Qdiv; apply Qmult_0_l.
Qed.

Theorem C101_hashtags_deleted_refuted : exists tags draw words L R i j,
  (forall n, 0 <= draw n < 1)%Q /\ In j tags /\ mget words i j <> 0%Z /\
  hashtag_split tags draw hashtag_train_prop_passed words = (L, R) /\ mget L i j <> 0%Z.
Proof.
  exists [0], (fun _ => 0%Q), (mkS [[(0, 2%Z); (1, 3%Z)]] 2), (mkS [[(0, 2%Z); (1, 3%Z)]] 2), (mkS [[]] 2), 0, 0.
  split; [intros; split; [apply Qle_refl|reflexivity]|]. split; [left; reflexivity|].
  split; [discriminate|]. split; [reflexivity|discriminate].
Qed.

(** Passing one instead deletes them all. *)
Theorem C101_proportion_one_deletes_hashtags : forall tags draw words L R,
  hashtag_split tags draw 1 words = (L, R) ->
  forall i j, mget R i j = (if existsb (Nat.eqb j) tags then mget words i j else 0%Z) /\
              mget L i j = (if existsb (Nat.eqb j) tags then 0%Z else mget words i j).
Proof.
  intros tags draw words L R H i j. unfold hashtag_split in H.
  destruct (C22_soft_split_partitions tags draw 1 words L R H) as (_ & _ & _ & _ & S & NR & NL & _).
  specialize (S i j). destruct (existsb (Nat.eqb j) tags) eqn:E.
  - apply existsb_exists in E as (x & Hx & Ex). apply Nat.eqb_eq in Ex. subst x.
    pose proof (NL i j Hx ltac:(cbv; discriminate)). split; lia.
  - assert (NI : ~ In j tags); [|pose proof (NR i j NI); split; lia]. intros X. assert (existsb (Nat.eqb j) tags = true).
    { apply existsb_exists. exists j. split; [exact X|apply Nat.eqb_refl]. } congruence.
Qed.

Example C101_example :
  hashtag_split [0] (fun _ => 1 # 2) hashtag_train_prop_passed (mkS [[(0, 2%Z); (1, 3%Z)]; [(0, 1%Z)]] 2) =
    (mkS [[(0, 2%Z); (1, 3%Z)]; [(0, 1%Z)]] 2, mkS [[]; []] 2) /\
  hashtag_split [0] (fun _ => 1 # 2) 1 (mkS [[(0, 2%Z); (1, 3%Z)]; [(0, 1%Z)]] 2) =
    (mkS [[(1, 3%Z)]; []] 2, mkS [[(0, 2%Z)]; [(0, 1%Z)]] 2).
Proof. split; reflexivity. Qed.

(** ** C102: precision is "how many of the top M documents actually contained
    that hashtag", out of M. *)
Definition containing (check : smat) (hi : nat) (docs : list nat) : nat :=
  length (filter (fun i => negb (mget check i hi =? 0)%Z) docs).

Lemma binary_sum check hi l : (forall i, 0 <= mget check i hi <= 1)%Z ->
  sumZ (map (fun i => mget check i hi) l) = Z.of_nat (containing check hi l).
Proof.
  intros H. unfold containing. induction l as [|i l IH]; [reflexivity|]. cbn [map sumZ filter].
  rewrite IH. specialize (H i). destruct (Z.eqb_spec (mget check i hi) 0); cbn [negb length]; lia.
Qed.

Lemma containing_le check hi l : containing check hi l <= length l.
Proof. unfold containing. apply filter_len_le. Qed.

Lemma containing_app check hi a b : containing check hi (a ++ b) = containing check hi a + containing check hi b.
Proof. unfold containing. rewrite filter_app, app_length. reflexivity. Qed.

Lemma containing_perm check hi a b : Permutation a b -> containing check hi a = containing check hi b.
Proof. apply filter_perm_len. Qed.

Lemma qdiv_le_1 (a b : Z) : (0 <= a <= b)%Z -> (0 < b)%Z -> (0 <= inject_Z a / inject_Z b <= 1)%Q.
Proof.
  intros H Hb. assert (0 < inject_Z b)%Q by (unfold Qlt; cbn; lia). split.
  - apply Qle_shift_div_l; [assumption|]. rewrite Qmult_0_l. unfold Qle; cbn; lia.
  - apply Qle_shift_div_r; [assumption|]. rewrite Qmult_1_l. unfold Qle; cbn; lia.
Qed.

(** True when no document has a hashtag more than once: precision and recall are
    the fractions meant and lie between zero and one. *)
Theorem C102_binary_counts_give_fractions : forall check order hi m,
  Permutation order (seq 0 (nrows check)) -> 0 < m ->
  (forall i, 0 <= mget check i hi <= 1)%Z ->
  let top := rev (last_of m order) in
  let all := containing check hi (seq 0 (nrows check)) in
  let found := containing check hi top in
  fst (hashtag_scores check order hi m) = (qnat found / qnat m)%Q /\
  snd (hashtag_scores check order hi m) = (qnat found / qnat (Nat.max (Nat.min m all) 1))%Q /\
  (0 <= fst (hashtag_scores check order hi m) <= 1)%Q /\ (0 <= snd (hashtag_scores check order hi m) <= 1)%Q.
Proof.
  intros check order hi m HP Hm Hb top all found.
  assert (Hfm : found <= m).
  { unfold found, top. eapply Nat.le_trans; [apply containing_le|]. rewrite rev_length. unfold last_of. rewrite skipn_length. lia. }
  assert (Hfa : found <= all).
  { unfold found, top, all. rewrite (containing_perm check hi (rev _) (last_of m order)) by (symmetry; apply Permutation_rev).
    rewrite <- (containing_perm check hi _ _ HP). unfold last_of.
    rewrite <- (firstn_skipn (length order - m) order) at 3. rewrite containing_app. lia. }
  assert (E1 : fst (hashtag_scores check order hi m) = (inject_Z (Z.of_nat found) / inject_Z (Z.of_nat m))%Q).
  { unfold hashtag_scores. cbn [fst]. rewrite binary_sum by exact Hb. reflexivity. }
  assert (E2 : snd (hashtag_scores check order hi m) = (inject_Z (Z.of_nat found) / inject_Z (Z.of_nat (Nat.max (Nat.min m all) 1)))%Q).
  { unfold hashtag_scores, column_sum. cbn [snd]. rewrite !binary_sum by exact Hb. fold top. fold found. fold all.
    f_equal. f_equal. lia. }
  split; [exact E1|]. split; [exact E2|]. rewrite E1, E2. split; apply qdiv_le_1; lia.
Qed.

Theorem C102_precision_is_a_fraction_refuted : exists check order hi m,
  Permutation order (seq 0 (nrows check)) /\ 0 < m /\ (forall i, 0 <= mget check i hi)%Z /\
  containing check hi (rev (last_of m order)) = 1 /\
  (fst (hashtag_scores check order hi m) == 3)%Q /\ (snd (hashtag_scores check order hi m) == 3)%Q.
Proof.
  exists (mkS [[(0, 3%Z)]; []] 1), [1; 0], 0, 1.
  split; [apply perm_swap|]. split; [lia|]. split; [intros [|[|[|]]]; cbv; discriminate|].
  repeat split; reflexivity.
Qed.

Example C102_example :
  let check := mkS [[(0, 1%Z)]; []; [(0, 1%Z)]] 1 in
  Permutation [0; 1; 2] (seq 0 (nrows check)) /\ (forall i, 0 <= mget check i 0 <= 1)%Z /\
  Qeq (fst (hashtag_scores check [0; 1; 2] 0 2)) (1 # 2) /\ Qeq (snd (hashtag_scores check [0; 1; 2] 0 2)) (1 # 2).
Proof. split; [reflexivity|]. split; [intros [|[|[|[|]]]]; cbv; split; discriminate|]. split; reflexivity. Qed.

(** ** C103: the tag evaluation's figures do not depend on the model.
    [expected] are the removed words of each document, without repetition. *)
Definition tag_docs (expected : list (list nat)) (score : nat -> nat -> Q) : list doc :=
  map (fun '(d, e) => tag_doc e (score d)) (combine (seq 0 (length expected)) expected).

Lemma tag_ranking argsort e score : sorts argsort -> Permutation (ranking argsort (snd (tag_doc e score))) e.
Proof.
  intros H. pose proof (ranking_perm argsort (snd (tag_doc e score)) H) as P. cbn [tag_doc snd] in *.
  rewrite map_map in P. cbn [fst] in P. rewrite map_id in P. exact P.
Qed.

Lemma tag_docs_in expected score d : In d (tag_docs expected score) -> exists i e, In e expected /\ d = tag_doc e (score i).
Proof.
  unfold tag_docs. intros H. apply in_map_iff in H as ([i e] & <- & H). exists i, e. split; [|reflexivity].
  eapply in_combine_r. exact H.
Qed.

Lemma tag_docs_length expected score : length (tag_docs expected score) = length expected.
Proof. unfold tag_docs. rewrite map_length, combine_length, seq_length. lia. Qed.

Lemma tag_docs_links expected score : length (with_links (tag_docs expected score)) =
  length (filter (fun e : list nat => match e with [] => false | _ => true end) expected).
Proof.
  unfold tag_docs, with_links. generalize 0. induction expected as [|e ex IH]; intros s; [reflexivity|].
  cbn [length seq combine map filter]. cbn [tag_doc fst]. destruct e; cbn [length]; rewrite (IH (S s)); reflexivity.
Qed.

(** Mean average precision: the share of documents that lost a word. *)
Theorem C103_map_ignores_model : forall argsort expected score,
  sorts argsort -> expected <> [] -> Forall (@NoDup nat) expected ->
  exists x, mean_average_prec argsort (tag_docs expected score) = Ok x /\
    (x == qnat (length (filter (fun e : list nat => match e with [] => false | _ => true end) expected)) / qnat (length expected))%Q.
Proof.
  intros argsort expected score Hs Hne HN.
  destruct (EvalProps.C23_map_of_perfect_ranking argsort (tag_docs expected score) Hs) as (x & Hx & E).
  - intros X. apply (f_equal (@length doc)) in X. rewrite tag_docs_length in X. destruct expected; [congruence|discriminate].
  - intros d Hd. apply tag_docs_in in Hd as (i & e & He & ->). rewrite Forall_forall in HN. cbn [tag_doc fst snd].
    rewrite map_map. cbn [fst]. rewrite map_id. split; [apply HN, He|]. split; [rewrite map_map; cbn [fst]; rewrite map_id; auto|].
    intros a p b q _ Hb _ Hn. apply in_map_iff in Hb as (w & [= <- <-] & Hw). contradiction.
  - exists x. split; [exact Hx|]. rewrite E, tag_docs_links, tag_docs_length. reflexivity.
Qed.

Fixpoint harmonic (n : nat) : Q := match n with 0 => 0 | S n' => harmonic n' + 1 / qnat n end.

Lemma qsum_ext_seq (f g : nat -> Q) n : (forall i, (i < n)%nat -> f i == g i)%Q -> (qsum f (seq 0 n) == qsum g (seq 0 n))%Q.
Proof. intros H. apply qsum_ext. intros a Ha. apply in_seq in Ha. apply H. lia. Qed.

Lemma find_pos_nth : forall l i, NoDup l -> i < length l -> find_pos (nth i l 0) l = i.
Proof.
  induction l as [|a l IH]; intros [|i] HN Hi; cbn [length] in Hi; try lia; cbn [nth find_pos].
  - rewrite Nat.eqb_refl. reflexivity.
  - inversion HN; subst. destruct (Nat.eqb_spec a (nth i l 0)) as [E|_].
    + exfalso. apply H1. rewrite E. apply nth_In. lia.
    + rewrite IH by (auto; lia). reflexivity.
Qed.

Lemma list_as_nth (l : list nat) : l = map (fun i => nth i l 0) (seq 0 (length l)).
Proof.
  induction l as [|a l IH]; [reflexivity|]. cbn [length seq map nth]. f_equal. rewrite <- seq_shift, map_map. exact IH.
Qed.

Lemma harmonic_sum n : (qsum (fun i => 1 / qnat (i + 1)%nat) (seq 0%nat n) == harmonic n)%Q.
Proof.
  induction n as [|n IH]; [reflexivity|]. rewrite seq_S, qsum_app, IH. cbn [harmonic Nat.add]. rewrite qsum_cons, qsum_nil.
  rewrite Nat.add_1_r. ring.
Qed.

Lemma tag_mrr argsort e score : sorts argsort -> NoDup e ->
  (fst (mrr_doc argsort (tag_doc e score)) == harmonic (length e))%Q /\ snd (mrr_doc argsort (tag_doc e score)) = length e.
Proof.
  intros Hs HN. pose proof (tag_ranking argsort e score Hs) as HP. unfold mrr_doc.
  set (recv := ranking argsort (snd (tag_doc e score))) in *. cbn [tag_doc fst].
  assert (HNr : NoDup recv) by (eapply Permutation_NoDup; [symmetry; exact HP|exact HN]).
  destruct (mrr_loop_spec recv 0 e HNr HN) as [E1 E2]. rewrite E1, E2. split.
  - rewrite <- (qsum_perm _ _ _ HP). rewrite <- (Permutation_length HP). rewrite (list_as_nth recv) at 2.
    rewrite <- harmonic_sum. unfold qsum. rewrite map_map. apply qsum_ext_seq. intros i Hi. unfold recip.
    destruct (in_dec Nat.eq_dec (nth i recv 0) recv) as [_|X]; [|exfalso; apply X, nth_In; exact Hi].
    rewrite (find_pos_nth recv i HNr Hi). reflexivity.
  - rewrite (filter_ext_in _ (fun _ => true)).
    + clear. induction e as [|a e IH]; cbn; [reflexivity|]. rewrite IH. reflexivity.
    + intros a Ha. destruct (in_dec Nat.eq_dec a recv) as [|X]; [reflexivity|]. exfalso. apply X.
      eapply Permutation_in; [symmetry; exact HP|exact Ha].
Qed.

(** Mean reciprocal rank: a function of the numbers of removed words. *)
Theorem C103_mrr_ignores_model : forall argsort expected score x,
  sorts argsort -> Forall (@NoDup nat) expected ->
  mean_reciprocal_rank argsort (tag_docs expected score) = Ok x ->
  (x == qsum (fun e : list nat => harmonic (length e)) expected / qnat (sumN (map (@length nat) expected)))%Q.
Proof.
  intros argsort expected score x Hs HN H. unfold mean_reciprocal_rank in H.
  assert (G : forall s ex, Forall (@NoDup nat) ex ->
    let docs := map (fun '(d, e) => tag_doc e (score d)) (combine (seq s (length ex)) ex) in
    (fold_right Qplus 0 (map (fun d => fst (mrr_doc argsort d)) docs) == qsum (fun e : list nat => harmonic (length e)) ex)%Q /\
    sumN (map (fun d => snd (mrr_doc argsort d)) docs) = sumN (map (@length nat) ex)).
  { intros s ex. revert s. induction ex as [|e ex IH]; intros s F; [split; reflexivity|]. inversion F; subst.
    cbn [length seq combine map fold_right sumN]. destruct (IH (S s) H3) as [I1 I2].
    destruct (tag_mrr argsort e (score s) Hs H2) as [T1 T2]. rewrite qsum_cons, I1, I2, T1, T2. split; reflexivity. }
  destruct (G 0 expected HN) as [G1 G2]. fold (tag_docs expected score) in G1, G2.
  destruct (_ =? 0) in H; [discriminate|]. injection H as <-. rewrite G1, G2. reflexivity.
Qed.

Lemma tag_prec_rec recv e m : NoDup e -> Permutation recv e ->
  prec_rec recv e m = prec_rec e e m.
Proof.
  intros HN HP. assert (HNr : NoDup recv) by (eapply Permutation_NoDup; [symmetry; exact HP|exact HN]).
  assert (NF : forall (l : list nat) k, NoDup l -> NoDup (firstn k l)).
  { intros l k Hl. rewrite <- (firstn_skipn k l) in Hl. eapply NoDup_app_l. exact Hl. }
  assert (L : forall l, NoDup l -> length (pyset (firstn (m + 1) l)) = Nat.min (m + 1) (length l)).
  { intros l Hl. unfold pyset. rewrite nodup_fixed_point by (apply NF, Hl). apply firstn_length. }
  assert (C : forall l, NoDup l -> (forall x, In x l -> In x e) -> common (firstn (m + 1) l) e = Nat.min (m + 1) (length l)).
  { intros l Hl Hi. unfold common. rewrite <- (L l Hl). rewrite (filter_ext_in _ (fun _ => true)).
    - generalize (pyset (firstn (m + 1) l)). clear. intros l. induction l as [|a l IH]; cbn; [reflexivity|]. rewrite IH. reflexivity.
    - intros x Hx. apply (proj1 (in_pyset _ _)) in Hx. apply existsb_exists. exists x. split; [|apply Nat.eqb_refl].
      apply (proj2 (in_pyset _ _)), Hi. eapply In_firstn. exact Hx. }
  unfold prec_rec. rewrite !L, !C by (auto; intros x Hx; eapply Permutation_in; eauto).
  rewrite (Permutation_length HP). reflexivity.
Qed.

(** Precision and recall tables: the same for any two models. *)
Theorem C103_precision_tables_ignore_model : forall argsort argsort' at_ groups expected score score',
  sorts argsort -> sorts argsort' -> Forall (@NoDup nat) expected ->
  mean_prec_rec_at argsort at_ groups (tag_docs expected score) =
  mean_prec_rec_at argsort' at_ groups (tag_docs expected score').
Proof.
  intros argsort argsort' at_ groups expected score score' Hs Hs' HN. unfold mean_prec_rec_at. cbv zeta.
  assert (G : forall ms gs ex s t, Forall (@NoDup nat) ex ->
    foldM (prec_rec_doc argsort ms gs) t (map (fun '(d, e) => tag_doc e (score d)) (combine (seq s (length ex)) ex)) =
    foldM (prec_rec_doc argsort' ms gs) t (map (fun '(d, e) => tag_doc e (score' d)) (combine (seq s (length ex)) ex))).
  { intros ms gs. induction ex as [|e ex IH]; intros s t F; [reflexivity|]. inversion F; subst.
    cbn [length seq combine map foldM].
    assert (E : prec_rec_doc argsort ms gs t (tag_doc e (score s)) = prec_rec_doc argsort' ms gs t (tag_doc e (score' s))).
    { unfold prec_rec_doc, tag_doc. destruct e as [|w e']; [reflexivity|].
      destruct (find_group _ gs) as [g|]; cbn [bind]; [|reflexivity].
      assert (M : forall a sc, sorts a -> mapM (prec_rec (ranking a (snd (tag_doc (w :: e') sc))) (w :: e')) ms =
                               mapM (prec_rec (w :: e') (w :: e')) ms).
      { intros a sc Ha. apply mapM_ext'. intros m _. apply tag_prec_rec; [assumption|]. apply tag_ranking, Ha. }
      pose proof (M argsort (score s) Hs) as M1. pose proof (M argsort' (score' s) Hs') as M2. cbn [tag_doc snd] in M1, M2.
      rewrite M1, M2. reflexivity. }
    rewrite E. destruct (prec_rec_doc argsort' ms gs t (tag_doc e (score' s))); cbn [bind]; [apply IH; assumption|reflexivity]. }
  unfold tag_docs. rewrite (G _ _ expected 0 _ HN). reflexivity.
Qed.

(** A model that gives every removed word a probability above all other words,
    and one that gives it a probability below all others, get the same figures. *)
Theorem C103_better_model_scores_higher_refuted : exists expected good bad,
  (forall d w w', In w (nth d expected []) -> ~ In w' (nth d expected []) -> (good d w' < good d w)%Q /\ (bad d w < bad d w')%Q) /\
  (exists x y, mean_average_prec isort (tag_docs expected good) = Ok x /\ mean_average_prec isort (tag_docs expected bad) = Ok y /\
  (0 < x)%Q /\ (x == y)%Q) /\
  (exists x y, mean_reciprocal_rank isort (tag_docs expected good) = Ok x /\ mean_reciprocal_rank isort (tag_docs expected bad) = Ok y /\
  (0 < x)%Q /\ (x == y)%Q) /\
  (exists t, mean_prec_rec_at isort (Some [1; 2]) (Some [(0, 3)%Z]) (tag_docs expected good) = Ok t /\
  mean_prec_rec_at isort (Some [1; 2]) (Some [(0, 3)%Z]) (tag_docs expected bad) = Ok t).
Proof.
  exists [[0]; [2; 1]],
    (fun d w => if in_dec Nat.eq_dec w (nth d [[0]; [2; 1]] []) then 1%Q else 0%Q),
    (fun d w => if in_dec Nat.eq_dec w (nth d [[0]; [2; 1]] []) then 0%Q else 1%Q).
  split.
  { intros d w w' Hw Hw'. destruct (in_dec Nat.eq_dec w _) as [_|X]; [|contradiction].
    destruct (in_dec Nat.eq_dec w' _) as [X|_]; [contradiction|]. split; reflexivity. }
  split; [do 2 eexists; split; [vm_compute; reflexivity|]; split; [vm_compute; reflexivity|]; split; reflexivity|].
  split; [do 2 eexists; split; [vm_compute; reflexivity|]; split; [vm_compute; reflexivity|]; split; reflexivity|].
  eexists; split; vm_compute; reflexivity.
Qed.

Example C103_example : val (mean_reciprocal_rank isort (tag_docs [[0]; [2; 1]] (fun d w => qnat (d + w)))) = (5 # 6)%Q.
Proof. vm_compute. reflexivity. Qed.

(** ** C104 *)
(** What argsort promises for integers. *)
Definition sortsZ (argsort : list Z -> list nat) : Prop := forall l,
  Permutation (argsort l) (seq 0 (length l)) /\
  forall i j a b, i < j -> nth_error (argsort l) i = Some a -> nth_error (argsort l) j = Some b ->
    (nth a l 0 <= nth b l 0)%Z.

(** How often the word occurs: the stored counts of its column, in all documents. *)
Definition frequency (words : smat) (w : nat) : Z :=
  sumZ (map snd (filter (fun e => fst e =? w) (concat (srows words)))).
Lemma column_sum_frequency words w : column_sum words w = frequency words w.
Proof.
  unfold column_sum, frequency, mget, nrows. destruct words as [rs nc]. cbn [srows].
  induction rs as [|r rs IH] using rev_ind; [reflexivity|].
  rewrite app_length, Nat.add_1_r, seq_S, map_app, sumZ_app, concat_app, filter_app, map_app, sumZ_app.
  cbn [concat map sumZ]. rewrite app_nil_r. f_equal.
  - rewrite <- IH. f_equal. apply map_ext_in. intros i Hi. apply in_seq in Hi. rewrite nth_error_app1 by lia. reflexivity.
  - rewrite Nat.add_0_l, nth_error_app2, Nat.sub_diag by lia. cbn [nth_error]. unfold sget. cbn. ring.
Qed.

(** The words returned are [count] different ones of the candidates (all of them if
    there are fewer), no candidate that is left out is more frequent than one
    that is returned, and the most frequent comes first. *)
Theorem C104_popular_words : forall argsort words cands count,
  sortsZ argsort -> NoDup cands ->
  let r := popular_indices argsort words cands count in
  length r = Nat.min count (length cands) /\ NoDup r /\ (forall w, In w r -> In w cands) /\
  (forall w w', In w r -> In w' cands -> ~ In w' r -> (frequency words w' <= frequency words w)%Z) /\
  (forall i j, i < j < length r -> (frequency words (nth j r 0%nat) <= frequency words (nth i r 0%nat))%Z).
Proof.
  intros argsort words cands count HS HN r. setoid_rewrite <- column_sum_frequency. revert argsort words cands count HS HN r.
  intros argsort words cands count HS HN r.
  set (freq := map (column_sum words) cands).
  destruct (HS freq) as [HP HO]. set (o := argsort freq) in *.
  assert (Lo : length o = length cands) by (rewrite (Permutation_length HP), seq_length; apply map_length).
  assert (No : NoDup o) by (eapply Permutation_NoDup; [symmetry; exact HP|apply seq_NoDup]).
  assert (Bo : forall x, In x o <-> x < length cands).
  { intros x. split; intros H.
    - apply (Permutation_in _ HP) in H. apply in_seq in H. unfold freq in H. rewrite map_length in H. lia.
    - apply (Permutation_in _ (Permutation_sym HP)). apply in_seq. unfold freq. rewrite map_length. lia. }
  assert (Fq : forall x, x < length cands -> nth x freq 0%Z = column_sum words (nth x cands 0)).
  { intros x Hx. unfold freq. rewrite (nth_indep _ 0%Z (column_sum words 0)) by (rewrite map_length; exact Hx). apply map_nth. }
  set (k := length o - count).
  assert (Er : r = map (fun i => nth i cands 0) (rev (skipn k o))) by reflexivity.
  assert (Lr : length r = length o - k) by (rewrite Er, map_length, rev_length, skipn_length; reflexivity).
  assert (Sk : forall i, i < length o - k -> nth i (skipn k o) 0 = nth (k + i) o 0).
  { intros i Hi. rewrite <- (firstn_skipn k o) at 2. rewrite app_nth2; rewrite firstn_length; [f_equal; lia|lia]. }
  assert (NthR : forall i, i < length r -> nth i r 0 = nth (nth (length o - 1 - i) o 0) cands 0).
  { intros i Hi. rewrite Er. rewrite (nth_indep _ 0 (nth 0 cands 0)) by (rewrite <- Er; exact Hi).
    rewrite (map_nth (fun i => nth i cands 0)). f_equal. rewrite rev_nth by (rewrite skipn_length; lia).
    rewrite skipn_length, Sk by lia. f_equal. lia. }
  assert (Inr : forall w, In w r <-> exists p, k <= p < length o /\ w = nth (nth p o 0) cands 0).
  { intros w. split.
    - intros H. apply (In_nth r w 0) in H as (i & Hi & <-). exists (length o - 1 - i). split; [lia|apply NthR, Hi].
    - intros (p & Hp & ->). replace (nth p o 0) with (nth (length o - 1 - (length o - 1 - p)) o 0) by (f_equal; lia).
      rewrite <- NthR by lia. apply nth_In. lia. }
  assert (Ord : forall p q, p < q < length o -> (column_sum words (nth (nth p o 0%nat) cands 0%nat) <= column_sum words (nth (nth q o 0%nat) cands 0%nat))%Z).
  { intros p q Hpq. rewrite <- !Fq by (apply Bo, nth_In; lia).
    apply (HO p q (nth p o 0) (nth q o 0)); [lia|apply nth_error_nth'; lia|apply nth_error_nth'; lia]. }
  split; [lia|]. split.
  { rewrite Er. apply NoDup_map_inj'; [|apply NoDup_rev; rewrite <- (firstn_skipn k o) in No; eapply NoDup_app_r; exact No].
    intros x y Hx Hy E. apply in_rev in Hx, Hy. apply In_skipn', Bo in Hx. apply In_skipn', Bo in Hy.
    rewrite NoDup_nth in HN. apply (HN x y Hx Hy E). }
  split.
  { intros w Hw. apply Inr in Hw as (p & Hp & ->). apply nth_In, Bo, nth_In. lia. }
  split.
  { intros w w' Hw Hw' Hn. apply Inr in Hw as (q & Hq & ->).
    apply (In_nth cands w' 0) in Hw' as (x & Hx & <-). apply Bo in Hx. apply (In_nth o x 0) in Hx as (p & Hp & <-).
    destruct (Nat.lt_ge_cases p k) as [L|L]; [apply Ord; lia|]. exfalso. apply Hn, Inr. exists p. split; [lia|reflexivity]. }
  intros i j Hij. rewrite !NthR by lia. apply Ord. lia.
Qed.

Definition isortZ (l : list Z) : list nat := isort (map inject_Z l).

Lemma isortZ_sorts : sortsZ isortZ.
Proof.
  intros l. unfold isortZ. destruct (isort_sorts (map inject_Z l)) as [P O]. rewrite map_length in P. split; [exact P|].
  intros i j a b Hij Ha Hb. specialize (O i j a b Hij Ha Hb).
  change 0%Q with (inject_Z 0) in O. rewrite !map_nth in O. rewrite <- Zle_Qle in O. exact O.
Qed.

Example C104_example :
  popular_indices isortZ (mkS [[(0, 2%Z); (1, 3%Z)]; [(0, 2%Z); (2, 9%Z)]; [(3, 1%Z)]] 4) [3; 0; 1] 2 = [0; 1].
Proof. vm_compute. reflexivity. Qed.

Print Assumptions C47_totals_are_of_finished_folds.
Print Assumptions C47_fails_iff_no_fold_finishes.
Print Assumptions C99_single_fold_reports_training_data_and_saves.
Print Assumptions C99_single_fold_not_saved_refuted.
Print Assumptions C48_every_fold_is_evaluated.
Print Assumptions C48_truncation_refuted.
Print Assumptions C100_insample_runs_requested_folds.
Print Assumptions C100_tags_run_target_folds.
Print Assumptions C100_tags_with_default_option_raise.
Print Assumptions C100_default_runs_all_folds_refuted.
Print Assumptions C101_no_hashtag_deleted.
Print Assumptions C101_hashtags_deleted_refuted.
Print Assumptions C101_proportion_one_deletes_hashtags.
Print Assumptions C102_binary_counts_give_fractions.
Print Assumptions C102_precision_is_a_fraction_refuted.
Print Assumptions C103_map_ignores_model.
Print Assumptions C103_mrr_ignores_model.
Print Assumptions C103_precision_tables_ignore_model.
Print Assumptions C103_better_model_scores_higher_refuted.
Print Assumptions C104_popular_words.
