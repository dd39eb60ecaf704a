(** * Properties C34-C36 and C72-C77: the real-valued helpers. *)
From Coq Require Import List Reals Arith Bool Lra Lia.
From Verif Require Import Base RealModel RealProofs.
Import ListNotations.
Open Scope R_scope.

(** ** C34 *)
Theorem C34_double_error : forall x, Rabs (log1pexp_f8 x - ln (1 + exp x)) < exp (-33).
Proof. intros x. replace (-33) with (- (33)) by lra. apply log1pexp_c_error; lra. Qed.

Theorem C34_single_error : forall x, Rabs (log1pexp_f4 x - ln (1 + exp x)) < exp (- (138 / 10)).
Proof. intros x. apply log1pexp_c_error; lra. Qed.

Theorem C34_sides : forall x,
  (x <= -17 -> ln (1 + exp x) < log1pexp_f8 x < ln (1 + exp x) + exp (-34)) /\
  (-17 < x <= 17 -> log1pexp_f8 x = ln (1 + exp x)) /\
  (17 < x <= 33 -> ln (1 + exp x) < log1pexp_f8 x < ln (1 + exp x) + exp (-34)) /\
  (33 < x -> log1pexp_f8 x < ln (1 + exp x)).
Proof.
  intros x. destruct (log1pexp_c_bounds (-17) 33 x ltac:(lra) ltac:(lra) ltac:(lra)) as (B1 & B2 & B3 & B4).
  replace (- -17) with 17 in * by lra. replace (2 * -17) with (-34) in * by lra. unfold log1pexp_f8.
  split; [exact B1|]. split; [exact B2|]. split; [exact B3|]. intros H. apply (B4 H).
Qed.

Theorem C34_numpy_error : forall x, Rabs (log1pexp_py x - ln (1 + exp x)) < exp (-33).
Proof.
  intros x. unfold log1pexp_py. pose proof (exp_pos (-33)) as P33.
  destruct (rleb x (-17)) eqn:E1; [apply rleb_true in E1|apply rleb_false in E1].
  - pose proof (exp_pos x) as P. pose proof (ln1p_upper _ P). pose proof (ln1p_lower _ P) as L. rewrite exp_sq in L.
    pose proof (exp_increasing (2 * x) (-33) ltac:(lra)). apply Rabs_def1; lra.
  - destruct (rleb x 0); [rewrite Rminus_diag_eq, Rabs_R0 by reflexivity; exact P33|].
    destruct (rleb x 33) eqn:E3; [rewrite <- log1pexp_split, Rminus_diag_eq, Rabs_R0 by reflexivity; exact P33|].
    apply rleb_false in E3. rewrite log1pexp_split. pose proof (exp_pos (- x)) as P. pose proof (ln1p_upper _ P).
    pose proof (ln1p_pos _ P). pose proof (exp_increasing (- x) (-33) ltac:(lra)). apply Rabs_def1; lra.
Qed.

Theorem C34_positive : forall x, 0 < log1pexp_f8 x /\ x <= log1pexp_f8 x.
Proof.
  intros x. unfold log1pexp_f8, log1pexp_c. pose proof (exp_pos x) as P. pose proof (exp_pos (- x)).
  pose proof (ln1p_pos _ P). destruct (rleb x (-17)) eqn:E1; [apply rleb_true in E1; lra|apply rleb_false in E1].
  destruct (rleb x (- -17)) eqn:E2; [|apply rleb_false in E2; destruct (rleb x 33); lra].
  split; [lra|]. rewrite log1pexp_split. pose proof (ln1p_pos (exp (- x)) ltac:(lra)). lra.
Qed.

Example C34_case : log1pexp_f8 (-20) = exp (-20) /\ log1pexp_f8 0 = ln 2 /\ log1pexp_f8 20 = 20 + exp (-20) /\ log1pexp_f8 50 = 50.
Proof.
  unfold log1pexp_f8, log1pexp_c. repeat split.
  - rcase; [reflexivity|lra].
  - rcase; [lra|]. rcase; [|lra]. rewrite exp_0. replace (1 + 1) with 2 by lra. reflexivity.
  - rcase; [lra|]. rcase; [lra|]. rcase; [reflexivity|lra].
  - rcase; [lra|]. rcase; [lra|]. rcase; [lra|reflexivity].
Qed.

(** ** C72 Larger arguments never give smaller results *)
Theorem C72_log1pexp_monotone_refuted : exists x y, x < y /\ log1pexp_f8 y < log1pexp_f8 x.
Proof.
  exists 33, (33 + exp (-33) / 2). pose proof (exp_pos (-33)) as P. split; [lra|].
  unfold log1pexp_f8, log1pexp_c.
  assert (forall z, 33 <= z -> rleb z (-17) = false /\ rleb z (- -17) = false) as G by (intros z Hz; rewrite !rleb_false; lra).
  destruct (G 33 ltac:(lra)) as [-> ->]. destruct (G (33 + exp (-33) / 2) ltac:(lra)) as [-> ->].
  assert (rleb (33 + exp (-33) / 2) 33 = false) as -> by (apply rleb_false; lra).
  assert (rleb 33 33 = true) as -> by (apply rleb_true; lra).
  replace (- (33)) with (-33) by lra. lra.
Qed.

(** The loss is below twice the tolerance. *)
Theorem C72_log1pexp_monotone_partial : forall x y, x <= y -> log1pexp_f8 x < log1pexp_f8 y + 2 * exp (-33).
Proof.
  intros x y H. pose proof (Rabs_def2 _ _ (C34_double_error x)) as [X1 X2]. pose proof (Rabs_def2 _ _ (C34_double_error y)) as [Y1 Y2].
  assert (ln (1 + exp x) <= ln (1 + exp y)); [|lra].
  destruct H as [H| ->]; [|right; reflexivity]. left. apply ln_increasing; [pose proof (exp_pos x); lra|].
  pose proof (exp_increasing x y H). lra.
Qed.

(** ** C75 The weighted sum of log(1+exp) *)
Definition exact_sum (weights : list R) (matrix : list (list R)) : R :=
  rsum (map (fun '(w, row) => rsum (map (fun v => w * ln (1 + exp v)) row)) (combine weights matrix)).
Definition tolerance (weights : list R) (matrix : list (list R)) (eps : R) : R :=
  rsum (map (fun '(w, row) => Rabs w * INR (length row) * eps) (combine weights matrix)).

Lemma scaled_loop_sum f matrix : forall weights acc, (length matrix <= length weights)%nat ->
  scaled_sum_loop f weights matrix acc =
  Ok (acc + rsum (map (fun '(w, row) => rsum (map (fun v => w * f v) row)) (combine weights matrix))).
Proof.
  induction matrix as [|row m IH]; intros weights acc H.
  - destruct weights; cbn [combine map rsum scaled_sum_loop]; rewrite Rplus_0_r; reflexivity.
  - destruct weights as [|w ws]; [cbn in H; lia|]. cbn [combine map scaled_sum_loop tl]. cbn [length] in H.
    destruct row as [|v row].
    + rewrite IH by lia. cbn [rsum map]. f_equal. lra.
    + rewrite IH by lia. unfold scaled_sum_step. rewrite (fold_left_rsum (fun v => w * f v)).
      rewrite Rplus_assoc. reflexivity.
Qed.

Lemma row_error f eps w row : (forall x, Rabs (f x - ln (1 + exp x)) < eps) -> 0 < eps ->
  Rabs (rsum (map (fun v => w * f v) row) - rsum (map (fun v => w * ln (1 + exp v)) row)) <= Rabs w * INR (length row) * eps.
Proof.
  intros Hf He. induction row as [|v row IH].
  - cbn [map rsum length INR]. rewrite Rminus_diag_eq, Rabs_R0 by reflexivity. lra.
  - cbn [map rsum length]. rewrite S_INR.
    replace (w * f v + rsum (map (fun v0 => w * f v0) row) - (w * ln (1 + exp v) + rsum (map (fun v0 => w * ln (1 + exp v0)) row)))
      with (w * (f v - ln (1 + exp v)) + (rsum (map (fun v0 => w * f v0) row) - rsum (map (fun v0 => w * ln (1 + exp v0)) row))) by lra.
    eapply Rle_trans; [apply Rabs_triang|]. rewrite Rabs_mult.
    pose proof (Rabs_pos w). specialize (Hf v). pose proof (Rabs_pos (f v - ln (1 + exp v))).
    assert (Rabs w * Rabs (f v - ln (1 + exp v)) <= Rabs w * eps) by (apply Rmult_le_compat_l; lra). lra.
Qed.

Lemma sum_error f eps weights matrix : (forall x, Rabs (f x - ln (1 + exp x)) < eps) -> 0 < eps ->
  (length matrix <= length weights)%nat ->
  exists s, scaled_sum f weights matrix = Ok s /\ Rabs (s - exact_sum weights matrix) <= tolerance weights matrix eps.
Proof.
  intros Hf He Hl. unfold scaled_sum. rewrite scaled_loop_sum by exact Hl. eexists. split; [reflexivity|].
  rewrite Rplus_0_l. unfold exact_sum, tolerance. clear Hl. induction (combine weights matrix) as [|[w row] l IH].
  - cbn [map rsum]. rewrite Rminus_diag_eq, Rabs_R0 by reflexivity. lra.
  - cbn [map rsum].
    match goal with |- Rabs (?a + ?b - (?c + ?d)) <= _ => replace (a + b - (c + d)) with ((a - c) + (b - d)) by lra end.
    eapply Rle_trans; [apply Rabs_triang|]. apply Rplus_le_compat; [|exact IH]. apply row_error; assumption.
Qed.

Theorem C75_weighted_sum_error : forall weights matrix, (length matrix <= length weights)%nat ->
  exists s, scaled_sum log1pexp_f8 weights matrix = Ok s /\
    Rabs (s - exact_sum weights matrix) <= tolerance weights matrix (exp (-33)).
Proof. intros. apply sum_error; [exact C34_double_error|apply exp_pos|assumption]. Qed.

Theorem C75_weighted_sum_error_single : forall weights matrix, (length matrix <= length weights)%nat ->
  exists s, scaled_sum log1pexp_f4 weights matrix = Ok s /\
    Rabs (s - exact_sum weights matrix) <= tolerance weights matrix (exp (- (138 / 10))).
Proof. intros. apply sum_error; [exact C34_single_error|apply exp_pos|assumption]. Qed.

(** Too few weights are read past the end. *)
Theorem C75_missing_weight : forall f weights row rest, row <> [] ->
  scaled_sum f weights (repeat [0] (length weights) ++ row :: rest) = Raise MemoryOOB.
Proof.
  intros f weights row rest H. unfold scaled_sum. generalize 0 at 2. induction weights as [|w ws IH]; intros acc.
  - cbn. destruct row; [congruence|reflexivity].
  - cbn [length repeat app scaled_sum_loop]. apply IH.
Qed.

Example C75_case : (length [[0; 40]; [50]] <= length [2; 3])%nat /\
  scaled_sum log1pexp_f8 [2; 3] [[0; 40]; [50]] = Ok (0 + 2 * log1pexp_f8 0 + 2 * log1pexp_f8 40 + 3 * log1pexp_f8 50).
Proof. split; [cbn; lia|reflexivity]. Qed.

(** ** C74 safe_log *)
Theorem C74_safe_log_in_place_agrees : forall a x, safe_log_ip a x = safe_log a x.
Proof.
  intros a x. unfold safe_log_ip, safe_log. rewrite map_map. apply map_ext. intros v. rcase; rcase; try reflexivity; lra.
Qed.

Theorem C74_safe_log_values : forall a x i v, 0 < a -> nth_error x i = Some v ->
  exists y, nth_error (safe_log a x) i = Some y /\ ln a <= y /\ (a <= v -> y = ln v) /\ (v < a -> y = ln a).
Proof.
  intros a x i v Ha H. unfold safe_log. rewrite nth_error_map, H. cbn [option_map]. eexists. split; [reflexivity|].
  rcase.
  - split; [|split; [reflexivity|intros; lra]]. destruct E as [E| ->]; [left; apply ln_increasing; lra|right; reflexivity].
  - split; [right; reflexivity|]. split; [intros; lra|reflexivity].
Qed.

(** x log x is right for every x >= 0, including 0 where it is 0. *)
Theorem C74_x_log_x : forall a x i v, nth_error x i = Some v -> 0 <= v ->
  exists y, nth_error (safe_x_log_x a x) i = Some y /\ (v = 0 -> y = 0) /\ (0 < v -> y = v * ln v).
Proof.
  intros a x i v H Hv. unfold safe_x_log_x. rewrite nth_error_map, H. cbn [option_map]. eexists. split; [reflexivity|].
  split; [intros ->; lra|]. intros Hp. rcase; [reflexivity|lra].
Qed.

Example C74_case : safe_log (1 / 2) [1; 0; -3] = [ln 1; ln (1 / 2); ln (1 / 2)].
Proof. unfold safe_log. cbn [map]. repeat f_equal; rcase; auto; lra. Qed.

(** ** C77 safeDet *)
Theorem C77_safe_det_is_the_maximum : forall m d, 0 < m -> safe_det m d = Rmax d m.
Proof.
  intros m d Hm. unfold safe_det. cbv zeta. unfold Rmax.
  destruct (rltb (- m) d) eqn:E1; [apply rltb_true in E1|apply rltb_false in E1];
  destruct (rltb d m) eqn:E2; [apply rltb_true in E2|apply rltb_false in E2|apply rltb_true in E2|apply rltb_false in E2];
  cbn [andb]; rcase; destruct (Rle_dec d m); lra.
Qed.
Example C77_case : safe_det (1 / 10) (-5) = 1 / 10 /\ safe_det (1 / 10) 5 = 5.
Proof. rewrite !C77_safe_det_is_the_maximum by lra. split; [apply Rmax_right|apply Rmax_left]; lra. Qed.

(** ** C35 *)
Definition order_kept (row out : list R) : Prop :=
  forall i j a b x y, nth_error row i = Some a -> nth_error row j = Some b ->
    nth_error out i = Some x -> nth_error out j = Some y -> (a < b <-> x < y).

Lemma softmax_of_good row : row <> [] ->
  length (softmax_of row) = length row /\ Forall (fun p => 0 < p <= 1) (softmax_of row) /\ rsum (softmax_of row) = 1 /\
  order_kept row (softmax_of row).
Proof.
  intros H. pose proof (expsum_pos row H) as S.
  assert (P : Forall (fun p => 0 < p) (softmax_of row)).
  { apply Forall_forall. intros p Hp. apply in_map_iff in Hp as (x & <- & _). apply Rdiv_lt_0_compat; [apply exp_pos|exact S]. }
  split; [unfold softmax_of; apply map_length|]. split; [|split; [apply softmax_of_sum; exact H|]].
  - rewrite Forall_forall in *. intros p Hp. split; [auto|].
    rewrite <- (softmax_of_sum row H). apply in_split in Hp as (l1 & l2 & E). rewrite E in P |- *. rewrite rsum_app. cbn [rsum].
    assert (N : forall l, (forall x, In x l -> 0 < x) -> 0 <= rsum l).
    { induction l as [|a l IH]; intros Hl; cbn [rsum]; [lra|]. specialize (IH (fun x Hx => Hl x (or_intror Hx))).
      specialize (Hl a (or_introl eq_refl)). lra. }
    pose proof (N l1 (fun x Hx => P x (in_or_app _ _ _ (or_introl Hx)))).
    pose proof (N l2 (fun x Hx => P x (in_or_app l1 (p :: l2) x (or_intror (or_intror Hx))))). lra.
  - intros i j a b x y Ha Hb Hx Hy. unfold softmax_of in Hx, Hy. rewrite nth_error_map in Hx, Hy.
    rewrite Ha in Hx. rewrite Hb in Hy. injection Hx as <-. injection Hy as <-. unfold Rdiv.
    pose proof (Rinv_0_lt_compat _ S) as IS. split; intros L.
    + apply Rmult_lt_compat_r; [exact IS|]. apply exp_increasing. exact L.
    + apply Rmult_lt_reg_r in L; [|exact IS]. apply exp_lt_inv. exact L.
Qed.

Theorem C35_rows_are_distributions : forall m, Forall (fun row => row <> []) m ->
  exists s, rowwise_softmax m = Ok s /\
    Forall2 (fun row out => length out = length row /\ Forall (fun p => 0 < p <= 1) out /\ rsum out = 1 /\ order_kept row out) m s.
Proof.
  intros m H. exists (map softmax_of m). split; [apply rowwise_spec; exact H|].
  induction H as [|row m Hr Hm IH]; constructor; [apply softmax_of_good; exact Hr|exact IH].
Qed.

(** Adding a constant to each row, another one for each row, changes nothing. *)
Theorem C35_shift_invariant : forall m cs, Forall (fun row => row <> []) m -> length cs = length m ->
  rowwise_softmax (map (fun '(row, c) => map (fun x => x + c) row) (combine m cs)) = rowwise_softmax m.
Proof.
  intros m cs H Hl. rewrite (rowwise_spec m H), rowwise_spec.
  - f_equal. rewrite map_map. revert cs Hl. induction H as [|row m Hr Hm IH]; intros [|c cs] Hl; try discriminate; [reflexivity|].
    cbn [combine map]. rewrite IH by (cbn in Hl; lia). f_equal. unfold softmax_of. rewrite !map_map. apply map_ext. intros x.
    rewrite <- (shifted_ratio x (- c) row Hr).
    rewrite (rsum_ext (fun x0 => exp (x0 + c)) (fun x0 => exp (x0 - - c))) by (intros; f_equal; lra).
    f_equal. f_equal. lra.
  - apply Forall_forall. intros r Hin. apply in_map_iff in Hin as ([row c] & <- & Hin). apply in_combine_l in Hin.
    rewrite Forall_forall in H. specialize (H row Hin). destruct row; [congruence|discriminate].
Qed.

(** Only numbers up to zero, and zero itself, are exponentiated. *)
Theorem C35_no_overflow : forall row mx, max_of row = Ok mx ->
  Forall (fun x => x <= 0) (softmax_args row mx) /\ In 0 (softmax_args row mx).
Proof.
  intros row mx H. apply max_of_spec in H as [H1 H2]. unfold softmax_args. split.
  - apply Forall_forall. intros y Hy. apply in_map_iff in Hy as (x & <- & Hx). specialize (H2 x Hx). lra.
  - apply in_map_iff. exists mx. split; [lra|exact H1].
Qed.

Lemma nonempty_dec (row : list R) : {row <> []} + {~ row <> []}.
Proof. destruct row; [right; intros H; apply H; reflexivity|left; discriminate]. Qed.

(** The log of a probability is the input less the log-sum-exp of the row. *)
Theorem C35_log_sum_exp : forall m s, rowwise_softmax m = Ok s ->
  map (map ln) s = map (fun '(row, l) => map (fun x => x - l) row) (combine m (lse m)).
Proof.
  intros m s H. assert (Hne : Forall (fun row => row <> []) m).
  { destruct (Forall_dec (fun row : list R => row <> []) nonempty_dec m) as [F|F]; [exact F|].
    rewrite (rowwise_raises m F) in H. discriminate. }
  rewrite (rowwise_spec m Hne) in H. injection H as <-. unfold lse. induction Hne as [|row m Hr Hm IH]; [reflexivity|].
  cbn [map combine]. rewrite IH. f_equal. unfold softmax_of. rewrite map_map. apply map_ext. intros x.
  unfold Rdiv. pose proof (expsum_pos row Hr) as S. rewrite ln_mult, ln_Rinv, ln_exp; [lra|exact S|apply exp_pos|].
  apply Rinv_0_lt_compat. exact S.
Qed.

Theorem C35_empty_row_raises : forall m, In [] m -> rowwise_softmax m = Raise ValueError.
Proof. intros m H. apply rowwise_raises. intros F. rewrite Forall_forall in F. apply (F [] H). reflexivity. Qed.

Lemma nth_map_seq {A} (f : nat -> A) n j d : (j < n)%nat -> nth j (map f (seq 0 n)) d = f j.
Proof.
  intros H. apply nth_error_nth. rewrite nth_error_map, (nth_error_nth' _ 0%nat) by (rewrite seq_length; lia).
  rewrite seq_nth by lia. reflexivity.
Qed.

(** Column by column. *)
Theorem C35_columns_are_distributions : forall n m, m <> [] -> Forall (fun row => length row = n) m ->
  exists s, colwise_softmax n m = Ok s /\ length s = length m /\ Forall (fun row => length row = n) s /\
    forall j, (j < n)%nat -> col s j = softmax_of (col m j).
Proof.
  intros n m Hne Hn. unfold colwise_softmax.
  assert (HM : exists maxes, mapM (fun j => max_of (col m j)) (seq 0 n) = Ok maxes).
  { induction (seq 0 n) as [|j l IH]; [eexists; reflexivity|]. cbn [mapM]. destruct (max_of_ok (col m j)) as (mx & ->).
    - destruct m; [congruence|discriminate].
    - destruct IH as (ms & ->). eexists. reflexivity. }
  destruct HM as (maxes & ->). cbn [bind]. eexists. split; [reflexivity|].
  split; [rewrite !map_length; reflexivity|]. split.
  - apply Forall_forall. intros r Hr. apply in_map_iff in Hr as (r' & <- & _). rewrite map_length, seq_length. reflexivity.
  - intros j Hj. set (out := map (fun row => map _ (seq 0 n)) m).
    assert (HC : col out j = map (fun x => exp (x - nth j maxes 0)) (col m j)).
    { unfold col, out. rewrite !map_map. apply map_ext. intros row. rewrite nth_map_seq by exact Hj. reflexivity. }
    unfold col at 1. rewrite map_map.
    rewrite (map_ext _ (fun row => nth j row 0 / rsum (col out j))) by (intros row; rewrite !nth_map_seq by exact Hj; reflexivity).
    rewrite <- (map_map (fun row => nth j row 0) (fun y => y / rsum (col out j))). fold (col out j). rewrite HC, map_map.
    unfold softmax_of. apply map_ext. intros x. apply shifted_ratio. destruct m; [congruence|discriminate].
Qed.

Example C35_case : rowwise_softmax [[0; 0]; [1; 1]] = Ok [[1 / 2; 1 / 2]; [1 / 2; 1 / 2]].
Proof.
  rewrite rowwise_spec by (repeat constructor; discriminate). unfold softmax_of. cbn [map rsum]. rewrite exp_0.
  pose proof (exp_pos 1).
  replace (exp 1 / (exp 1 + (exp 1 + 0))) with (1 / 2) by (field; lra).
  replace (1 / (1 + (1 + 0))) with (1 / 2) by lra. reflexivity.
Qed.

(** ** C76 selfSoftDot: compiled versions and fallback agree *)
Definition soft_dot (row : list R) : R := rsum (map (fun '(x, y) => x * y) (combine row (softmax_of row))).

Lemma soft_dot_eq row : soft_dot row = rsum (map (fun x => x * (exp x / rsum (map exp row))) row).
Proof.
  unfold soft_dot, softmax_of. set (f := fun x => exp x / rsum (map exp row)).
  change (fun x => x * (exp x / rsum (map exp row))) with (fun x => x * f x). clearbody f.
  induction row as [|x r IH]; [reflexivity|]. cbn [map combine rsum]. rewrite IH. reflexivity.
Qed.

Theorem C76_self_soft_dot_value : forall m, Forall (fun row => row <> []) m ->
  self_soft_dot m = Ok (rsum (map soft_dot m)) /\ self_soft_dot_py m = Ok (rsum (map soft_dot m)).
Proof.
  intros m H. split.
  - unfold self_soft_dot. rewrite self_soft_dot_fold by exact H. rewrite Rplus_0_l. f_equal. apply rsum_ext. intros row _.
    symmetry. apply soft_dot_eq.
  - unfold self_soft_dot_py. rewrite rowwise_spec by exact H. cbn [bind]. f_equal. clear H.
    induction m as [|row m IH]; [reflexivity|]. cbn [map combine rsum]. rewrite IH. reflexivity.
Qed.

(** It lies between the smallest and the largest element of each row. *)
Theorem C76_between_extremes : forall row lo hi, row <> [] -> (forall x, In x row -> lo <= x <= hi) -> lo <= soft_dot row <= hi.
Proof.
  intros row lo hi H Hb. rewrite soft_dot_eq. pose proof (softmax_of_sum row H) as S.
  assert (G : forall l, (forall x, In x l -> In x row) ->
     lo * rsum (map (fun x => exp x / rsum (map exp row)) l) <= rsum (map (fun x => x * (exp x / rsum (map exp row))) l)
     <= hi * rsum (map (fun x => exp x / rsum (map exp row)) l)).
  { induction l as [|x l IH]; intros Hl; cbn [map rsum]; [lra|]. specialize (IH (fun y Hy => Hl y (or_intror Hy))).
    specialize (Hb x (Hl x (or_introl eq_refl))).
    assert (0 < exp x / rsum (map exp row)) as Q by (apply Rdiv_lt_0_compat; [apply exp_pos|apply expsum_pos; exact H]).
    assert (lo * (exp x / rsum (map exp row)) <= x * (exp x / rsum (map exp row)) <= hi * (exp x / rsum (map exp row)))
      by (split; apply Rmult_le_compat_r; lra). lra. }
  specialize (G row (fun x Hx => Hx)). unfold softmax_of in S. rewrite S in G. lra.
Qed.

(** The number subtracted before exponentiating is the largest element of the
    row, so no positive number is ever exponentiated. *)
Theorem C76_shift_is_maximum : forall row mx, scan_max row = Ok mx ->
  In mx row /\ forall v, In v row -> v - mx <= 0.
Proof.
  intros row mx H. split.
  - destruct row as [|x r]; [discriminate|]. cbn [scan_max] in H. injection H as <-.
    assert (G : forall l a, fold_left (fun m v => if rltb m v then v else m) l a = a \/
      In (fold_left (fun m v => if rltb m v then v else m) l a) l).
    { induction l as [|b l IH]; intros a; cbn [fold_left]; [left; reflexivity|].
      destruct (rltb a b).
      - destruct (IH b) as [->|Hi]; right; [left; reflexivity|right; exact Hi].
      - destruct (IH a) as [->|Hi]; [left; reflexivity|right; right; exact Hi]. }
    destruct (G (x :: r) x) as [E|Hi]; [|exact Hi].
    left. symmetry. exact E.
  - intros v Hv. pose proof (scan_max_ge row mx H v Hv). lra.
Qed.
Example C76_case : self_soft_dot [[2; 2]; [3]] = Ok 5.
Proof.
  destruct (C76_self_soft_dot_value [[2; 2]; [3]]) as [-> _]; [repeat constructor; discriminate|].
  rewrite (map_ext soft_dot _ soft_dot_eq). cbn [map rsum]. pose proof (exp_pos 2). pose proof (exp_pos 3). f_equal. field. lra.
Qed.

(** ** C73 scaledSelfSoftDot weighs the rows *)
Definition weighted (m : list (list R)) (scale : list R) : R :=
  rsum (map (fun '(row, c) => c * soft_dot row) (combine m scale)).

Theorem C73_scale_is_used_refuted : exists m scale, Forall (fun row => row <> []) m /\ length scale = length m /\
  scaled_self_soft_dot m scale <> Ok (weighted m scale) /\ scaled_self_soft_dot_py m scale <> Ok (weighted m scale).
Proof.
  exists [[1]], [2]. split; [repeat constructor; discriminate|]. split; [reflexivity|].
  unfold scaled_self_soft_dot, scaled_self_soft_dot_py. destruct (C76_self_soft_dot_value [[1]]) as [-> ->]; [repeat constructor; discriminate|].
  unfold weighted. cbn [combine map rsum]. rewrite soft_dot_eq. cbn [map rsum]. pose proof (exp_pos 1).
  replace (exp 1 / (exp 1 + 0)) with 1 by (field; lra). split; intros [= E]; lra.
Qed.

Theorem C73_scale_is_used_partial : forall m scale, Forall (fun row => row <> []) m -> length scale = length m ->
  Forall (fun c => c = 1) scale -> scaled_self_soft_dot m scale = Ok (weighted m scale).
Proof.
  intros m scale H Hl H1. unfold scaled_self_soft_dot. destruct (C76_self_soft_dot_value m H) as [-> _]. f_equal. unfold weighted. clear H.
  revert scale Hl H1. induction m as [|row m IH]; intros [|c cs] Hl H1; try discriminate; [reflexivity|].
  cbn [combine map rsum]. inversion H1; subst. rewrite (IH cs) by (auto; cbn in Hl; lia). lra.
Qed.

(** ** C36 *)
Definition measured (boundIters boundValues : list R) (bvIdx : nat) (i0 i1 v0 v1 : R) : Prop :=
  (2 <= bvIdx)%nat /\
  nth_error boundIters (bvIdx - 2) = Some i0 /\ nth_error boundIters (bvIdx - 1) = Some i1 /\
  nth_error boundValues (bvIdx - 2) = Some v0 /\ nth_error boundValues (bvIdx - 1) = Some v1.

(** The number of degrees as an angle. *)
Definition degrees (e : R) : R := e * PI / 180.

Theorem C36_exactly_when : forall its vals n i0 i1 v0 v1 eps minIters,
  measured its vals n i0 i1 v0 v1 -> -90 < eps < 90 ->
  converged its vals n eps minIters = Ok (negb (rltb i1 minIters) && rltb ((v1 - v0) / (i1 - i0)) (tan (degrees eps))).
Proof.
  intros its vals n i0 i1 v0 v1 eps mi (Hn & Hi0 & Hi1 & Hv0 & Hv1) He. unfold converged.
  destruct (Nat.ltb_spec n 2); [lia|]. unfold get_. rewrite Hi0, Hi1, Hv0, Hv1. cbn [bind].
  destruct (rltb i1 mi); [reflexivity|]. cbn [negb andb]. f_equal.
  set (s := (v1 - v0) / (i1 - i0)). pose proof PI_RGT_0 as HPI.
  assert (HD : - PI / 2 < degrees eps < PI / 2).
  { unfold degrees. assert (-90 * PI < eps * PI < 90 * PI) by (split; apply Rmult_lt_compat_r; lra). lra. }
  pose proof (atan_bound s) as HA.
  assert (HE : atan s * 180 / PI < eps <-> atan s < degrees eps).
  { unfold degrees. split; intros L.
    - apply (Rmult_lt_compat_r (PI / 180)) in L; [|lra]. replace (atan s * 180 / PI * (PI / 180)) with (atan s) in L by (field; lra). lra.
    - apply (Rmult_lt_reg_r (PI / 180)); [lra|]. replace (atan s * 180 / PI * (PI / 180)) with (atan s) by (field; lra). lra. }
  assert (HT : atan s < degrees eps <-> s < tan (degrees eps)).
  { split; intros L.
    - rewrite <- (tan_atan s). apply tan_increasing; lra.
    - rewrite <- (atan_tan (degrees eps)) by lra. apply atan_increasing. exact L. }
  destruct (rltb (atan s * 180 / PI) eps) eqn:E1; destruct (rltb s (tan (degrees eps))) eqn:E2; try reflexivity;
    rewrite ?rltb_true, ?rltb_false in *; exfalso; [|].
  - apply HE, HT in E1. lra.
  - apply HT, HE in E2. lra.
Qed.

Theorem C36_needs_two_measurements : forall its vals n eps minIters,
  converged its vals n eps minIters = Ok true ->
  (2 <= n)%nat /\ exists i0 i1 v0 v1, measured its vals n i0 i1 v0 v1 /\ minIters <= i1.
Proof.
  intros its vals n eps mi. unfold converged. destruct (Nat.ltb_spec n 2); [discriminate|]. unfold get_.
  destruct (nth_error its (n - 1)) as [i1|] eqn:E1; [|discriminate]. cbn [bind]. destruct (rltb i1 mi) eqn:E; [discriminate|].
  apply rltb_false in E.
  destruct (nth_error vals (n - 1)) as [v1|] eqn:E2; [|discriminate]. cbn [bind].
  destruct (nth_error vals (n - 2)) as [v0|] eqn:E3; [|discriminate]. cbn [bind].
  destruct (nth_error its (n - 2)) as [i0|] eqn:E4; [|discriminate]. cbn [bind]. intros _.
  split; [lia|]. exists i0, i1, v0, v1. split; [|lra]. unfold measured. auto.
Qed.

(** A bound that falls steeply counts as converged. *)
Theorem C36_flat_in_magnitude_refuted : exists its vals n,
  measured its vals n 100 110 0 (-1000000) /\
  converged its vals n 10 100 = Ok true /\ Rabs (((-1000000) - 0) / (110 - 100)) > tan (degrees 10).
Proof.
  exists [100; 110], [0; -1000000], 2%nat.
  assert (M : measured [100; 110] [0; -1000000] 2 100 110 0 (-1000000)) by (unfold measured; cbn; auto).
  pose proof PI_RGT_0 as HPI.
  assert (T0 : 0 < tan (degrees 10)) by (apply tan_gt_0; unfold degrees; lra).
  assert (T1 : tan (degrees 10) < 1) by (rewrite <- tan_PI4; apply tan_increasing; unfold degrees; lra).
  split; [exact M|]. split.
  - rewrite (C36_exactly_when _ _ _ _ _ _ _ 10 100 M) by lra. f_equal.
    assert (rltb 110 100 = false) as -> by (apply rltb_false; lra). cbn [negb andb]. apply rltb_true. lra.
  - replace ((-1000000 - 0) / (110 - 100)) with (-100000) by field. rewrite Rabs_left by lra. lra.
Qed.

(** For a bound that did not fall, the claim holds. *)
Theorem C36_flat_in_magnitude_partial : forall its vals n i0 i1 v0 v1 eps minIters,
  measured its vals n i0 i1 v0 v1 -> 0 < eps < 90 -> i0 < i1 -> v0 <= v1 ->
  converged its vals n eps minIters = Ok true -> Rabs ((v1 - v0) / (i1 - i0)) < tan (degrees eps).
Proof.
  intros its vals n i0 i1 v0 v1 eps mi M He Hi Hv H. rewrite (C36_exactly_when _ _ _ _ _ _ _ _ _ M) in H by lra.
  injection H as H. apply andb_true_iff in H as [_ H]. apply rltb_true in H. rewrite Rabs_right; [exact H|].
  apply Rle_ge. apply Rmult_le_pos; [lra|]. left. apply Rinv_0_lt_compat. lra.
Qed.

Example C36_case : measured [90; 100; 110] [1; 5; 5] 3 100 110 5 5 /\ converged [90; 100; 110] [1; 5; 5] 3 10 100 = Ok true.
Proof.
  assert (M : measured [90; 100; 110] [1; 5; 5] 3 100 110 5 5) by (unfold measured; cbn; auto). split; [exact M|].
  rewrite (C36_exactly_when _ _ _ _ _ _ _ 10 100 M) by lra. f_equal.
  assert (rltb 110 100 = false) as -> by (apply rltb_false; lra). cbn [negb andb]. apply rltb_true.
  replace ((5 - 5) / (110 - 100)) with 0 by field. apply tan_gt_0; unfold degrees; pose proof PI_RGT_0; lra.
Qed.

Print Assumptions C34_double_error.
Print Assumptions C34_single_error.
Print Assumptions C34_sides.
Print Assumptions C34_numpy_error.
Print Assumptions C34_positive.
Print Assumptions C72_log1pexp_monotone_refuted.
Print Assumptions C72_log1pexp_monotone_partial.
Print Assumptions C75_weighted_sum_error.
Print Assumptions C75_weighted_sum_error_single.
Print Assumptions C75_missing_weight.
Print Assumptions C74_safe_log_in_place_agrees.
Print Assumptions C74_safe_log_values.
Print Assumptions C74_x_log_x.
Print Assumptions C77_safe_det_is_the_maximum.
Print Assumptions C35_rows_are_distributions.
Print Assumptions C35_shift_invariant.
Print Assumptions C35_no_overflow.
Print Assumptions C35_log_sum_exp.
Print Assumptions C35_empty_row_raises.
Print Assumptions C35_columns_are_distributions.
Print Assumptions C76_self_soft_dot_value.
Print Assumptions C76_between_extremes.
Print Assumptions C76_shift_is_maximum.
Print Assumptions C73_scale_is_used_refuted.
Print Assumptions C73_scale_is_used_partial.
Print Assumptions C36_exactly_when.
Print Assumptions C36_needs_two_measurements.
Print Assumptions C36_flat_in_magnitude_refuted.
Print Assumptions C36_flat_in_magnitude_partial.
