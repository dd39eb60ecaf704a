(** * Proofs about the real-valued helpers. *)
From Coq Require Import List Reals Arith Bool Lra Lia.
From Verif Require Import Base RealModel.
Import ListNotations.
Open Scope R_scope.

Lemma rleb_true x y : rleb x y = true <-> x <= y.
Proof. unfold rleb. destruct (Rle_dec x y); intuition; try discriminate; lra. Qed.
Lemma rleb_false x y : rleb x y = false <-> y < x.
Proof. unfold rleb. destruct (Rle_dec x y); intuition; try discriminate; lra. Qed.
Lemma rltb_true x y : rltb x y = true <-> x < y.
Proof. unfold rltb. destruct (Rlt_dec x y); intuition; try discriminate; lra. Qed.
Lemma rltb_false x y : rltb x y = false <-> y <= x.
Proof. unfold rltb. destruct (Rlt_dec x y); intuition; try discriminate; lra. Qed.
Ltac rcase :=
  match goal with
  | |- context [rleb ?x ?y] => let E := fresh "E" in destruct (rleb x y) eqn:E; [apply rleb_true in E|apply rleb_false in E]
  | |- context [rltb ?x ?y] => let E := fresh "E" in destruct (rltb x y) eqn:E; [apply rltb_true in E|apply rltb_false in E]
  end.

(** ** Logarithms *)
Lemma exp_ge_1_plus x : 1 + x <= exp x.
Proof. destruct (Req_dec x 0) as [->|H]; [rewrite exp_0; lra|]. left. apply exp_ineq1. exact H. Qed.
Lemma ln_le_sub1 x : 0 < x -> ln x <= x - 1.
Proof.
  intros H. pose proof (exp_ge_1_plus (ln x)) as E. rewrite exp_ln in E by exact H. lra.
Qed.
Lemma ln1p_upper y : 0 < y -> ln (1 + y) < y.
Proof.
  intros H. rewrite <- (ln_exp y) at 2. apply ln_increasing; [lra|]. apply exp_ineq1. lra.
Qed.
Lemma ln1p_pos y : 0 < y -> 0 < ln (1 + y).
Proof. intros H. rewrite <- ln_1. apply ln_increasing; lra. Qed.
Lemma ln1p_lower y : 0 < y -> y - y * y < ln (1 + y).
Proof.
  intros H. assert (HI : 0 < / (1 + y)) by (apply Rinv_0_lt_compat; lra).
  pose proof (ln_le_sub1 (/ (1 + y)) HI) as E. rewrite ln_Rinv in E by lra.
  assert (HE : (1 + y) * / (1 + y) = 1) by (apply Rinv_r; lra).
  assert (y - y * y < 1 - / (1 + y)); [|lra].
  assert (0 < y * y * y * / (1 + y)); [|].
  { apply Rmult_lt_0_compat; [|exact HI]. apply Rmult_lt_0_compat; [|exact H]. apply Rmult_lt_0_compat; exact H. }
  assert (1 - / (1 + y) - (y - y * y) = y * y * y * / (1 + y)); [|lra].
  assert (/ (1 + y) = 1 - y * / (1 + y)) as G by lra.
  field. lra.
Qed.
Lemma log1pexp_split x : ln (1 + exp x) = x + ln (1 + exp (- x)).
Proof.
  rewrite <- (ln_exp x) at 2. rewrite <- ln_mult; [|apply exp_pos|pose proof (exp_pos (- x)); lra].
  f_equal. rewrite Rmult_plus_distr_l, <- exp_plus, Rplus_opp_r, exp_0. lra.
Qed.
Lemma exp_sq x : exp x * exp x = exp (2 * x).
Proof. rewrite <- exp_plus. f_equal. lra. Qed.
Lemma exp_le x y : x <= y -> exp x <= exp y.
Proof. intros [H| ->]; [left; apply exp_increasing; exact H|right; reflexivity]. Qed.

Lemma log1pexp_c_bounds lower upper x : lower <= 0 -> - lower <= upper -> upper <= - 2 * lower ->
  let t := ln (1 + exp x) in
  (x <= lower -> t < log1pexp_c lower upper x < t + exp (2 * lower)) /\
  (lower < x <= - lower -> log1pexp_c lower upper x = t) /\
  (- lower < x <= upper -> t < log1pexp_c lower upper x < t + exp (2 * lower)) /\
  (upper < x -> t - exp (- upper) < log1pexp_c lower upper x < t).
Proof.
  intros Hl Hu Hu2 t. unfold log1pexp_c. split; [|split; [|split]]; intros Hx.
  - assert (rleb x lower = true) as -> by (apply rleb_true; lra). unfold t.
    pose proof (exp_pos x) as P. pose proof (ln1p_upper (exp x) P). pose proof (ln1p_lower (exp x) P) as L.
    rewrite exp_sq in L. pose proof (exp_le (2 * x) (2 * lower) ltac:(lra)). lra.
  - assert (rleb x lower = false) as -> by (apply rleb_false; lra).
    assert (rleb x (- lower) = true) as -> by (apply rleb_true; lra). reflexivity.
  - assert (rleb x lower = false) as -> by (apply rleb_false; lra).
    assert (rleb x (- lower) = false) as -> by (apply rleb_false; lra).
    assert (rleb x upper = true) as -> by (apply rleb_true; lra). unfold t. rewrite log1pexp_split.
    pose proof (exp_pos (- x)) as P. pose proof (ln1p_upper _ P). pose proof (ln1p_lower _ P) as L.
    rewrite exp_sq in L. pose proof (exp_le (2 * - x) (2 * lower) ltac:(lra)). lra.
  - assert (rleb x lower = false) as -> by (apply rleb_false; lra).
    assert (rleb x (- lower) = false) as -> by (apply rleb_false; lra).
    assert (rleb x upper = false) as -> by (apply rleb_false; lra). unfold t. rewrite log1pexp_split.
    pose proof (exp_pos (- x)) as P. pose proof (ln1p_upper _ P). pose proof (ln1p_pos _ P).
    pose proof (exp_increasing (- x) (- upper) ltac:(lra)). lra.
Qed.

Lemma log1pexp_c_error lower upper x : lower <= 0 -> - lower <= upper -> upper <= - 2 * lower ->
  Rabs (log1pexp_c lower upper x - ln (1 + exp x)) < exp (- upper).
Proof.
  intros Hl Hu Hu2. destruct (log1pexp_c_bounds lower upper x Hl Hu Hu2) as (B1 & B2 & B3 & B4).
  pose proof (exp_le (2 * lower) (- upper) ltac:(lra)) as M. pose proof (exp_pos (- upper)).
  destruct (Rle_dec x lower) as [C|C]; [specialize (B1 C); apply Rabs_def1; lra|].
  destruct (Rle_dec x (- lower)) as [C'|C']; [rewrite B2 by lra; rewrite Rminus_diag_eq by reflexivity; rewrite Rabs_R0; lra|].
  destruct (Rle_dec x upper) as [C''|C'']; [specialize (B3 ltac:(lra)); apply Rabs_def1; lra|].
  specialize (B4 ltac:(lra)). apply Rabs_def1; lra.
Qed.

(** ** Sums *)
Lemma rsum_app l r : rsum (l ++ r) = rsum l + rsum r.
Proof. induction l; cbn [rsum app]; lra. Qed.
Lemma rsum_scale c l : rsum (map (fun x => c * x) l) = c * rsum l.
Proof. induction l; cbn [rsum map]; lra. Qed.
Lemma rsum_div c l : rsum (map (fun x => x / c) l) = rsum l / c.
Proof. unfold Rdiv. induction l as [|a l IH]; cbn [rsum map]; [ring|]. rewrite IH. ring. Qed.
Lemma rsum_pos l : l <> [] -> Forall (fun x => 0 < x) l -> 0 < rsum l.
Proof.
  intros Hne H. destruct H as [|x l Hx Hl]; [congruence|]. cbn [rsum].
  clear Hne. assert (0 <= rsum l); [|lra]. induction Hl; cbn [rsum]; lra.
Qed.
Lemma rsum_ext {A} (f g : A -> R) l : (forall x, In x l -> f x = g x) -> rsum (map f l) = rsum (map g l).
Proof.
  induction l as [|a l IH]; intros H; [reflexivity|]. cbn [map rsum]. rewrite IH by (intros; apply H; right; assumption).
  rewrite (H a) by (left; reflexivity). reflexivity.
Qed.
Lemma fold_left_rsum {A} (f : A -> R) l acc : fold_left (fun s v => s + f v) l acc = acc + rsum (map f l).
Proof. revert acc; induction l; intros acc; cbn [fold_left map rsum]; [lra|]. rewrite IHl. lra. Qed.

(** ** Softmax *)
Lemma fold_max_ge l x : x <= fold_left Rmax l x /\ (forall y, In y l -> y <= fold_left Rmax l x).
Proof.
  revert x; induction l as [|a l IH]; intros x; cbn [fold_left]; [split; [lra|intros ? []]|].
  destruct (IH (Rmax x a)) as [I1 I2]. pose proof (Rmax_l x a). pose proof (Rmax_r x a). split; [lra|].
  intros y [->|Hy]; [lra|auto].
Qed.
Lemma fold_max_in l x : In (fold_left Rmax l x) (x :: l).
Proof.
  revert x; induction l as [|a l IH]; intros x; cbn [fold_left]; [left; reflexivity|].
  destruct (IH (Rmax x a)) as [E|E].
  - rewrite <- E. unfold Rmax. destruct (Rle_dec x a); [right; left|left]; reflexivity.
  - right; right; exact E.
Qed.
Lemma max_of_spec row mx : max_of row = Ok mx -> In mx row /\ forall y, In y row -> y <= mx.
Proof.
  destruct row as [|x r]; cbn [max_of]; [discriminate|]. intros [= <-]. split; [apply fold_max_in|].
  intros y [->|Hy]; [apply (proj1 (fold_max_ge r y))|apply (proj2 (fold_max_ge r x)); exact Hy].
Qed.
Lemma max_of_ok row : row <> [] -> exists mx, max_of row = Ok mx.
Proof. destruct row; [congruence|]. intros _. eexists. reflexivity. Qed.

(** The textbook definition. *)
Definition softmax_of (row : list R) : list R := map (fun x => exp x / rsum (map exp row)) row.

Lemma exps_pos row : Forall (fun x => 0 < x) (map exp row).
Proof. apply Forall_forall. intros y Hy. apply in_map_iff in Hy as (x & <- & _). apply exp_pos. Qed.
Lemma expsum_pos row : row <> [] -> 0 < rsum (map exp row).
Proof. intros H. apply rsum_pos; [destruct row; [congruence|discriminate]|apply exps_pos]. Qed.

Lemma shifted_expsum row c : rsum (map (fun x => exp (x - c)) row) = rsum (map exp row) * exp (- c).
Proof.
  induction row as [|x r IH]; cbn [map rsum]; [lra|]. rewrite IH. unfold Rminus at 1. rewrite exp_plus. lra.
Qed.

Lemma shifted_ratio x c row : row <> [] -> exp (x - c) / rsum (map (fun x => exp (x - c)) row) = exp x / rsum (map exp row).
Proof.
  intros H. rewrite shifted_expsum. unfold Rminus. rewrite exp_plus. pose proof (exp_pos (- c)). pose proof (expsum_pos row H).
  field. lra.
Qed.

Lemma softmax_row_spec row : row <> [] -> softmax_row row = Ok (softmax_of row).
Proof.
  intros H. unfold softmax_row. destruct (max_of_ok row H) as (mx & ->). cbn [bind]. f_equal.
  unfold softmax_args. rewrite !map_map. unfold softmax_of. apply map_ext. intros x. apply shifted_ratio. exact H.
Qed.

Lemma softmax_of_sum row : row <> [] -> rsum (softmax_of row) = 1.
Proof.
  intros H. unfold softmax_of. rewrite <- (map_map exp (fun y => y / rsum (map exp row))), rsum_div.
  pose proof (expsum_pos row H). field. lra.
Qed.

Lemma scan_max_spec row : row <> [] -> exists mx, scan_max row = Ok mx.
Proof. destruct row; [congruence|]. intros _. eexists. reflexivity. Qed.

Lemma scan_max_ge row mx : scan_max row = Ok mx -> forall v, In v row -> v <= mx.
Proof.
  destruct row as [|x r]; [discriminate|]. cbn [scan_max]. intros [= <-].
  assert (G : forall l a, a <= fold_left (fun m v => if rltb m v then v else m) l a /\
                     (forall v, In v l -> v <= fold_left (fun m v => if rltb m v then v else m) l a)).
  { induction l as [|b l IH]; intros a; cbn [fold_left]; [split; [lra|intros ? []]|].
    destruct (rltb a b) eqn:E; [apply rltb_true in E|apply rltb_false in E].
    - destruct (IH b) as [I1 I2]. split; [lra|]. intros v [->|Hv]; auto.
    - destruct (IH a) as [I1 I2]. split; [lra|]. intros v [->|Hv]; [lra|auto]. }
  exact (proj2 (G (x :: r) x)).
Qed.

Lemma soft_dot_row_spec t row : row <> [] ->
  soft_dot_row t row = Ok (t + rsum (map (fun x => x * (exp x / rsum (map exp row))) row)).
Proof.
  intros H. unfold soft_dot_row. destruct (scan_max_spec row H) as (mx & ->). cbn [bind]. f_equal.
  rewrite (fold_left_rsum (fun v => exp (v - mx))), Rplus_0_l, fold_left_rsum. f_equal.
  apply rsum_ext. intros x _. rewrite <- (shifted_ratio x mx row H). unfold Rdiv. lra.
Qed.

Lemma self_soft_dot_fold m : Forall (fun row => row <> []) m -> forall t,
  fold_left (fun acc row => do t <- acc; soft_dot_row t row) m (Ok t) =
  Ok (t + rsum (map (fun row => rsum (map (fun x => x * (exp x / rsum (map exp row))) row)) m)).
Proof.
  induction 1 as [|row m Hr Hm IH]; intros t; cbn [fold_left map rsum]; [rewrite Rplus_0_r; reflexivity|].
  cbn [bind]. rewrite soft_dot_row_spec by exact Hr. rewrite IH. f_equal. lra.
Qed.

Lemma rowwise_spec m : Forall (fun row => row <> []) m -> rowwise_softmax m = Ok (map softmax_of m).
Proof.
  unfold rowwise_softmax. induction 1 as [|row m Hr Hm IH]; [reflexivity|]. cbn [mapM map].
  rewrite softmax_row_spec by exact Hr. cbn [bind]. rewrite IH. reflexivity.
Qed.

Lemma rowwise_raises m : ~ Forall (fun row => row <> []) m -> rowwise_softmax m = Raise ValueError.
Proof.
  unfold rowwise_softmax. induction m as [|row m IH]; intros H; [exfalso; apply H; constructor|]. cbn [mapM].
  destruct row as [|x r]; [reflexivity|]. rewrite softmax_row_spec by discriminate. cbn [bind]. rewrite IH; [reflexivity|].
  intros F. apply H. constructor; [discriminate|exact F].
Qed.
