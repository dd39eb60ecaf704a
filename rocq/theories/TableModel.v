(** * Model of the tables printed by the evaluations (printTable, __main__.py
    lines 1198-1211) and read by /repo/sidetopics/run/reshape_results.py.  A file
    is its list of lines. *)
From Coq Require Import Ascii String List ZArith QArith Arith Bool.
From Verif Require Import Base EvalModel StrModel.
Import ListNotations.
Open Scope nat_scope.
Open Scope list_scope.

(** ** printTable *)
(** groups.sort() of pairs of integers. *)
Definition gle (a b : group) : bool :=
  ((fst a <? fst b) || ((fst a =? fst b) && (snd a <=? snd b)))%Z.
Fixpoint ginsert (a : group) (l : list group) : list group :=
  match l with
  | [] => [a]
  | b :: r => if gle a b then a :: l else b :: ginsert a r
  end.
Definition gsort (l : list group) : list group := fold_right ginsert [] l.

Fixpoint join_bar (l : list (list ascii)) : list ascii :=
  match l with
  | [] => []
  | [a] => a
  | a :: r => a ++ T " | " ++ join_bar r
  end.

Section Print.
  (** The conversions "%2d,%5d", "%9d", "%.3f" and the two heading lines. *)
  Context (fmt_group : group -> list ascii) (fmt_count : nat -> list ascii) (fmt_val : Q -> list ascii)
          (heading rule : list ascii).

  (** Lines 1206-1211. *)
  Definition print_row (g : group) (count : nat) (vals : list Q) : list ascii :=
    T "| " ++ fmt_group g ++ T " " ++ T "| " ++ fmt_count count ++ T " " ++
    T "| " ++ join_bar (map fmt_val vals) ++ T " |".

  (** Lines 1198-1211. *)
  Definition print_table (title : list ascii) (scores : dict (list Q)) (doc_counts : dict nat) : res (list (list ascii)) :=
    do rows <- mapM (fun g => do c <- get_key g doc_counts; do v <- get_key g scores; Ok (print_row g c v))
                    (gsort (map fst scores));
    Ok (title :: heading :: rule :: rows).
End Print.

(** ** reshape_results.py: lines 9-15 *)
Inductive range := All | Range0_3 | Range3_up | Range3_5 | Range5_up | Range5_10 | Range10_up.
Definition range_eq_dec (a b : range) : {a = b} + {a <> b}.
Proof. decide equality. Defined.
Definition FileGroups : list range := [All; Range0_3; Range3_5; Range5_10; Range10_up].
(** The number of values of m (line 13). *)
Definition Ms : nat := 10.

(** One entry of new_group_k_dict (line 62): the number of documents and a value
    for every m. *)
Record entry := mkE { e_docs : Q; e_vals : list Q }.
Definition table : Type := range -> entry.
Definition new_table : table := fun _ => mkE 0 (repeat 0%Q Ms).
Definition put (r : range) (e : entry) (t : table) : table :=
  fun x => if range_eq_dec x r then e else t x.

(** ** roll_up_and_average, lines 153-159 *)
Definition accumulate (dst src : range) (t : table) : table :=
  let d := t dst in
  let s := t src in
  put dst (mkE (e_docs d + e_docs s)
               (map (fun '(x, y) => x + y * e_docs s)%Q (combine (e_vals d) (e_vals s)))) t.
Definition divide (dst : range) (t : table) : res table :=
  let d := t dst in
  if Qeq_bool (e_docs d) 0 then Raise ZeroDivisionError
  else Ok (put dst (mkE (e_docs d) (map (fun x => x / e_docs d)%Q (e_vals d))) t).
Definition roll_up (t : table) (dst : range) (srcs : list range) : res table :=
  divide dst (fold_left (fun t src => accumulate dst src t) srcs t).

(** ** read_table, lines 129-150.  [to_float] is float(). *)
Section Read.
  Context (to_float : list ascii -> res Q).
  (** file.readline(). *)
  Definition readline (file : list (list ascii)) : list ascii * list (list ascii) :=
    match file with [] => ([], []) | l :: r => (l ++ [ascii_of_nat 10], r) end.

  (** Lines 140-142. *)
  Definition read_row (line : list ascii) : res entry :=
    let cols := split_on "|"%char (strip line) in
    do vs <- mapM (fun i => do c <- get_ cols (i + 2); to_float (strip c)) (seq 0 (1 + Ms));
    match vs with
    | d :: v => Ok (mkE d v)
    | [] => Raise IndexError
    end.

  (** Lines 138-142. *)
  Fixpoint read_rows (gs : list range) (file : list (list ascii)) (t : table) : res (table * list (list ascii)) :=
    match gs with
    | [] => Ok (t, file)
    | g :: gs' =>
      let (line, file') := readline file in
      do e <- read_row line;
      read_rows gs' file' (put g e t)
    end.

  Definition read_table (file : list (list ascii)) : res (table * list ascii * list (list ascii)) :=
    let file := snd (readline (snd (readline file))) in
    do (t, file) <- read_rows FileGroups file new_table;
    do t <- roll_up t Range3_up [Range3_5; Range5_10; Range10_up];
    do t <- roll_up t Range5_up [Range5_10; Range10_up];
    let (line, file) := readline file in
    Ok (t, line, file).
End Read.
