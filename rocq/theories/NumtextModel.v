(** * Model of /repo/sidetopics/run/text_to_numpy.py

    A file is a list of lines, a line the list of its words (str.split).  float() is
    an argument, as is the rounding of numbers to np.float32 and to np.int32, which
    for the latter drops what is after the point if the number is in its range. *)
From Coq Require Import List Arith Bool ZArith QArith Qround Lia.
From Verif Require Import Base.
Import ListNotations.
Open Scope nat_scope.

Section numtext.
  Context {W : Type}.
  Variable float_of : W -> option Q.      (* None: ValueError *)
  Variable has_point : W -> bool.         (* "." in the word *)
  Variables (to_float32 outside_int32 : Q -> Q).

  Inductive dtype := Int32 | Float32.
  (** Line 22 and line 48. *)
  Definition dtype_of (first_line : list W) : dtype := if existsb has_point first_line then Float32 else Int32.
  Definition truncate (x : Q) : Z := if Qle_bool 0 x then Qfloor x else Qceiling x.
  Definition stored (t : dtype) (x : Q) : Q :=
    match t with
    | Float32 => to_float32 x
    | Int32 => let z := truncate x in
               if ((- 2147483648 <=? z) && (z <=? 2147483647))%Z then inject_Z z else outside_int32 x
    end.
  (** [float(fstr) for fstr in line.split()], lines 30 and 55. *)
  Fixpoint floats (line : list W) : option (list Q) :=
    match line with
    | [] => Some []
    | w :: r => match float_of w, floats r with Some x, Some l => Some (x :: l) | _, _ => None end
    end.

  (** A matrix: its rows.  None in a cell of an np.ndarray: nothing was stored there. *)
  Definition matrix : Type := list (list (option Q)).
  Fixpoint set_nth {B} (l : list B) (i : nat) (x : B) : list B :=
    match l, i with
    | [], _ => []
    | _ :: r, 0 => x :: r
    | y :: r, S j => y :: set_nth r j x
    end.
  (** matrix[row,:] = vals, line 60, with the rules of numpy for shapes. *)
  Definition set_row (t : dtype) (cols : nat) (m : matrix) (row : nat) (vals : list Q) : res matrix :=
    if row <? length m
    then if length vals =? cols then Ok (set_nth m row (map (fun x => Some (stored t x)) vals))
         else match vals with
              | [x] => Ok (set_nth m row (repeat (Some (stored t x)) cols))
              | _ => Raise ValueError
              end
    else Raise IndexError.
  (** Lines 51-61: SystemExit, from die, is OtherError. *)
  Fixpoint dense_rows (t : dtype) (cols : nat) (m : matrix) (row : nat) (file : list (list W)) : res (matrix * nat) :=
    match file with
    | [] => Ok (m, row)
    | line :: r =>
      match floats line with
      | None => Raise OtherError
      | Some vals => do m' <- set_row t cols m row vals; dense_rows t cols m' (S row) r
      end
    end.
  (** readline of an empty file gives an empty string. *)
  Definition first_line (file : list (list W)) : list W := match file with [] => [] | l :: _ => l end.
  (** save_as_numpy, lines 44-67: what is written. *)
  Definition save_as_numpy (file : list (list W)) (row_count : nat) : res matrix :=
    let cols := length (first_line file) in
    let t := dtype_of (first_line file) in
    do (m, row) <- dense_rows t cols (repeat (repeat None cols) row_count) 0 file;
    if row =? row_count then Ok m else Raise OtherError.

  (** The assignments matrix[row, col] = val of lines 31-33, for the columns from [col] on. *)
  Fixpoint sparse_row (t : dtype) (m : list (list Q)) (row col cols : nat) (vals : list Q) : res (list (list Q)) :=
    match vals with
    | [] => Ok m
    | x :: r =>
      if Qle_bool x 0 then sparse_row t m row (S col) cols r
      else if (row <? length m) && (col <? cols)
           then sparse_row t (set_nth m row (set_nth (nth row m []) col (stored t x))) row (S col) cols r
           else Raise IndexError
    end.
  Fixpoint sparse_rows (t : dtype) (cols : nat) (m : list (list Q)) (row : nat) (file : list (list W)) : res (list (list Q) * nat) :=
    match file with
    | [] => Ok (m, row)
    | line :: r =>
      match floats line with
      | None => Raise OtherError
      | Some vals => do m' <- sparse_row t m row 0 cols vals; sparse_rows t cols m' (S row) r
      end
    end.
  (** save_as_numpy_sparse, lines 18-42: the cells of the matrix that is written. *)
  Definition save_as_numpy_sparse (file : list (list W)) (row_count : nat) : res (list (list Q)) :=
    let cols := length (first_line file) in
    let t := dtype_of (first_line file) in
    do (m, row) <- sparse_rows t cols (repeat (repeat 0%Q cols) row_count) 0 file;
    if row =? row_count then Ok m else Raise OtherError.
End numtext.

(** read_wc_l_output, lines 70-74, of the output of wc -l: it counts the ends of
    lines, of which the last line may have none. *)
Definition wc_l {W} (file : list (list W)) (ended : bool) : nat := if ended then length file else length file - 1.
