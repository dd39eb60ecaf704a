(** * Model of the real-valued helpers: util/overflow_safe.py, the scalar part of
    util/se_fast.pyx, util/sigmoid_utils.py, util/sig_fast.pyx, util/misc.py and
    util/array_utils.py.  Floating point numbers are real numbers here: no
    rounding, overflow, infinities or NaN. *)
From Coq Require Import List Reals Arith Bool.
From Verif Require Import Base.
Import ListNotations.
Open Scope R_scope.

Definition rleb (x y : R) : bool := if Rle_dec x y then true else false.
Definition rltb (x y : R) : bool := if Rlt_dec x y then true else false.

Fixpoint rsum (l : list R) : R := match l with [] => 0 | x :: r => x + rsum r end.

(** ** log(1+exp x) *)

(** _safe_log_one_plus_exp_f8, se_fast.pyx lines 115-138, and _f4, lines 82-105:
    the same text with other limits. *)
Definition log1pexp_c (lower upper x : R) : R :=
  if rleb x lower then exp x
  else if rleb x (- lower) then ln (1 + exp x)
  else if rleb x upper then x + exp (- x)
  else x.
Definition log1pexp_f8 : R -> R := log1pexp_c (-17) 33.
Definition log1pexp_f4 : R -> R := log1pexp_c (-11) (138 / 10).

(** safe_log_one_plus_exp_of, overflow_safe.py lines 62-81, one element. *)
Definition log1pexp_py (x : R) : R :=
  if rleb x (-17) then exp x
  else if rleb x 0 then ln (1 + exp x)
  else if rleb x 33 then x + ln (1 + exp (- x))
  else x.

(** scaledSumOfLnOnePlusExp_f8, se_fast.pyx lines 17-41 (f4 47-71): the weights
    are read without bounds checks. *)
Definition scaled_sum_step (f : R -> R) (w : R) (row : list R) (acc : R) : R :=
  fold_left (fun s v => s + w * f v) row acc.
Fixpoint scaled_sum_loop (f : R -> R) (weights : list R) (matrix : list (list R)) (acc : R) : res R :=
  match matrix with
  | [] => Ok acc
  | row :: rest =>
    match row, weights with
    | [], _ => scaled_sum_loop f (tl weights) rest acc
    | _, [] => Raise MemoryOOB
    | _, w :: ws => scaled_sum_loop f ws rest (scaled_sum_step f w row acc)
    end
  end.
Definition scaled_sum (f : R -> R) (weights : list R) (matrix : list (list R)) : res R :=
  scaled_sum_loop f weights matrix 0.

(** ** safe_log, overflow_safe.py lines 184-204; [a] is almostZero.  First the
    branch for out different from x (lines 197-199), then for out = x (200-202). *)
Definition safe_log (a : R) (x : list R) : list R :=
  map (fun v => if rleb a v then ln v else ln a) x.
Definition safe_log_ip (a : R) (x : list R) : list R :=
  map ln (map (fun v => if rltb v a then a else v) x).

(** safe_x_log_x, lines 168-181. *)
Definition safe_x_log_x (a : R) (x : list R) : list R :=
  map (fun v => v * (if rltb 0 v then ln v else ln a)) x.

(** safeDet, lines 25-43, from the determinant on; [m] is minPositiveValue. *)
Definition safe_det (m det : R) : R :=
  let det := if rltb (- m) det && rltb det m then m else det in
  if rleb det (- m) then m else det.

(** ** Softmax *)

(** matrix.max(axis=1): raises for rows without elements. *)
Definition max_of (l : list R) : res R :=
  match l with [] => Raise ValueError | x :: r => Ok (fold_left Rmax r x) end.

(** rowwise_softmax, sigmoid_utils.py lines 14-26. *)
Definition softmax_args (row : list R) (mx : R) : list R := map (fun x => x - mx) row.
Definition softmax_row (row : list R) : res (list R) :=
  do mx <- max_of row;
  let out := map exp (softmax_args row mx) in
  Ok (map (fun y => y / rsum out) out).
Definition rowwise_softmax (m : list (list R)) : res (list (list R)) := mapM softmax_row m.

(** colwise_softmax, lines 28-40, for a matrix of [n] columns: column maxima,
    exponentials, column sums. *)
Definition col (m : list (list R)) (j : nat) : list R := map (fun row => nth j row 0) m.
Definition colwise_softmax (n : nat) (m : list (list R)) : res (list (list R)) :=
  do maxes <- mapM (fun j => max_of (col m j)) (seq 0 n);
  let out := map (fun row => map (fun j => exp (nth j row 0 - nth j maxes 0)) (seq 0 n)) m in
  let sums := map (fun j => rsum (col out j)) (seq 0 n) in
  Ok (map (fun row => map (fun j => nth j row 0 / nth j sums 0) (seq 0 n)) out).

(** lse, sigmoid_utils.py lines 42-54 and sparse_elementwise.py lines 37-47. *)
Definition lse (m : list (list R)) : list R := map (fun row => ln (rsum (map exp row))) m.

(** selfSoftDot_f8, sig_fast.pyx lines 17-46 (f4 52-80).  The first element of a
    row is read without a bounds check. *)
Definition scan_max (row : list R) : res R :=
  match row with
  | [] => Raise MemoryOOB
  | x :: _ => Ok (fold_left (fun m v => if rltb m v then v else m) row x)
  end.
Definition soft_dot_row (total : R) (row : list R) : res R :=
  do mx <- scan_max row;
  let expSum := fold_left (fun s v => s + exp (v - mx)) row 0 in
  Ok (fold_left (fun t v => t + exp (v - mx) * v / expSum) row total).
Definition self_soft_dot (m : list (list R)) : res R :=
  fold_left (fun acc row => do t <- acc; soft_dot_row t row) m (Ok 0).

(** The fallback for other dtypes, sigmoid_utils.py line 75. *)
Definition self_soft_dot_py (m : list (list R)) : res R :=
  do s <- rowwise_softmax m;
  Ok (rsum (map (fun '(row, srow) => rsum (map (fun '(x, y) => x * y) (combine row srow))) (combine m s))).

(** selfSoftDot_f8_i8, _f4_i8, _f8_f8, _f4_f4, lines 83-220, and the fallback in
    scaledSelfSoftDot, sigmoid_utils.py line 106: none of them mentions the
    scale. *)
Definition scaled_self_soft_dot (m : list (list R)) (scale : list R) : res R := self_soft_dot m.
Definition scaled_self_soft_dot_py (m : list (list R)) (scale : list R) : res R := self_soft_dot_py m.

(** normalizerows_ip, array_utils.py lines 12-18. *)
Definition normalizerows (m : list (list R)) : list (list R) :=
  map (fun row => map (fun x => x / rsum row) row) m.

(** ** converged, misc.py lines 33-57.  Measurements are reals, [bvIdx] is the
    position of the next measurement. *)
Definition converged (boundIters boundValues : list R) (bvIdx : nat) (epsilon minIters : R) : res bool :=
  if (bvIdx <? 2)%nat then Ok false else
  do lastIter <- get_ boundIters (bvIdx - 1);
  if rltb lastIter minIters then Ok false else
  do v1 <- get_ boundValues (bvIdx - 1);
  do v0 <- get_ boundValues (bvIdx - 2);
  do i0 <- get_ boundIters (bvIdx - 2);
  let angle := atan ((v1 - v0) / (lastIter - i0)) * 180 / PI in
  Ok (rltb angle epsilon).
