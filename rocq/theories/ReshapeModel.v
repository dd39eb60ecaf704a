(** * Model of the reading of a results file and its writing as comma-separated
    values, /repo/sidetopics/run/reshape_results.py.  A file is its list of lines,
    every one of them ended by a line feed; tables are read as in TableModel. *)
From Coq Require Import Ascii String List ZArith QArith Arith Bool.
From Verif Require Import Base EvalModel StrModel TableModel.
Import ListNotations.
Open Scope nat_scope.
Open Scope list_scope.

(** Lines 9-11: the groups in the order written, and their names. *)
Definition FullGroups : list range := [All; Range0_3; Range3_up; Range3_5; Range5_up; Range5_10; Range10_up].
Definition range_name (r : range) : text :=
  match r with
  | All => T "0->" | Range0_3 => T "0->3" | Range3_up => T "3->" | Range3_5 => T "3->5"
  | Range5_up => T "5->" | Range5_10 => T "5->10" | Range10_up => T "10->"
  end.
(** Line 13. *)
Definition m_names : list text :=
  [T "10"; T "20"; T "30"; T "40"; T "50"; T "75"; T "100"; T "150"; T "250"; T "500"].
(** Lines 16-20. *)
Definition PerplexityPrefix : text := T "Training perplexity is ".
Definition PrecisionTitle : text := T "Precision".
Definition RecallTitle : text := T "Recall".
Definition MrrPrefix : text := T "Mean reciprocal-rank: ".
Definition MapPrefix : text := T "Mean average-precision: ".

(** s.startswith(p). *)
Definition starts (p s : text) : bool := teqb (firstn (length p) s) p.
(** s.strip(chars): [p] says which characters are taken off. *)
Fixpoint drop (p : ascii -> bool) (s : text) : text :=
  match s with
  | [] => []
  | c :: s' => if p c then drop p s' else s
  end.
Definition strip_by (p : ascii -> bool) (s : text) : text := rev (drop p (rev (drop p s))).
Definition one_of (chars : list nat) (c : ascii) : bool := existsb (Nat.eqb (nat_of_ascii c)) chars.
(** " \t\r\n," and " \t\r\n,K=". *)
Definition name_strip : ascii -> bool := one_of [32; 9; 13; 10; 44].
Definition topics_strip : ascii -> bool := one_of [32; 9; 13; 10; 44; 75; 61].

(** " ".join(l). *)
Fixpoint join_with (sep : text) (l : list text) : text :=
  match l with
  | [] => []
  | [a] => a
  | a :: r => a ++ sep ++ join_with sep r
  end.

(** ** Algorithm, lines 39-59 *)
Record algorithm := mkAlg { a_name : text; a_topics : text; a_desc : text }.
(** from_file_entry, lines 46-53. *)
Definition from_file_entry (line : text) : res algorithm :=
  let parts := split_on " "%char line in
  do p0 <- get_ parts 0;
  do p1 <- get_ parts 1;
  Ok (mkAlg (strip_by name_strip p0) (strip_by topics_strip p1)
            (if length parts =? 2 then [] else strip (join_with (T " ") (skipn 2 parts)))).
(** __str__, lines 55-56. *)
Definition algorithm_str (a : algorithm) : text := a_name a ++ T ", K=" ++ a_topics a ++ T " " ++ a_desc a.

(** ** Results, lines 31-37 *)
Record results := mkRes { r_precs : table; r_recs : table; r_map : Q; r_mrr : Q; r_perp : Q }.

(** The loop shared by read_perplexity, read_precs, read_recs, read_mrr and
    read_map (lines 93-99, 105-112, 118-125, 163-169 and 174-180): lines are
    stripped and skipped until one is a [hit], or one says [stop]. *)
Inductive scanned :=
| Hit (line : text) (file : list text)
| Stop (line : text) (file : list text)
| Ended.
Fixpoint scan (hit stop : text -> bool) (line : text) (file : list text) : scanned :=
  match line with
  | [] => Ended
  | _ =>
    let s := strip line in
    if hit s then Hit s file
    else if stop s then Stop s file
    else match file with
         | [] => Ended
         | l :: r => scan hit stop (l ++ [ascii_of_nat 10]) r
         end
  end.

Section ReadResults.
  (** float(). *)
  Context (to_float : text -> res Q).

  (** read_perplexity, read_mrr and read_map: the value after the prefix, and -1
      at the line that says [stop] or at the end of the file. *)
  Definition read_value (prefix : text) (stop : text -> bool) (line : text) (file : list text) : res (Q * text * list text) :=
    match scan (starts prefix) stop line file with
    | Hit s f =>
      do v <- to_float (skipn (length prefix) s);
      let (l, f) := readline f in Ok (v, l, f)
    | Stop s f => Ok (-1 # 1, s, f)
    | Ended => Ok (-1 # 1, [], [])
    end%Q.
  (** read_precs and read_recs. *)
  Definition read_titled (title : text) (stop : text -> bool) (line : text) (file : list text) : res (table * text * list text) :=
    match scan (starts title) stop line file with
    | Hit _ f => read_table to_float f
    | Stop s f => Ok (new_table, s, f)
    | Ended => Ok (new_table, [], [])
    end.

  (** read_perplexity, lines 85-101. *)
  Definition read_perplexity := read_value PerplexityPrefix (starts PrecisionTitle).
  (** read_precs, lines 104-114. *)
  Definition read_precs := read_titled PrecisionTitle (starts RecallTitle).
  (** read_recs, lines 117-127. *)
  Definition read_recs := read_titled RecallTitle (starts MrrPrefix).
  (** read_mrr, lines 162-171. *)
  Definition read_mrr := read_value MrrPrefix (starts MapPrefix).
  (** read_map, lines 173-182: a blank line says stop. *)
  Definition read_map := read_value MapPrefix (fun s => teqb s []).

  (** read_next_result_batch, lines 66-82. *)
  Definition read_next_result_batch (line : text) (file : list text) : res (results * text * list text) :=
    do (perp, line, file) <- read_perplexity line file;
    do (precs, line, file) <- read_precs line file;
    do (recs, line, file) <- read_recs line file;
    do (mrr, line, file) <- read_mrr line file;
    do (map, line, file) <- read_map line file;
    Ok (mkRes precs recs map mrr perp, line, file).

  (** skip_to_non_empty_line, lines 184-199. *)
  Fixpoint skip_from (line : text) (file : list text) : text * list text :=
    match line with
    | [] => ([], file)
    | _ =>
      let s := strip line in
      if negb (teqb s [] || starts (T "#") s) then (line, file)
      else match file with
           | [] => ([], [])
           | l :: r => skip_from (l ++ [ascii_of_nat 10]) r
           end
    end.

  (** read_all_results, lines 201-219.  The keys of the dictionary are compared by
      identity, so every entry is kept, in the order read.  [fuel] is a number of
      rounds; [read_all] gives one more than there are lines, and every round
      reads one. *)
  Fixpoint read_entries (fuel : nat) (file : list text) : res (list (algorithm * results)) :=
    match fuel with
    | 0 => Raise OtherError
    | S fuel' =>
      let (l, f) := readline file in
      let (line, f) := skip_from l f in
      match line with
      | [] => Ok []
      | _ =>
        do a <- from_file_entry line;
        let (l, f) := readline f in
        let (line, f) := skip_from l f in
        match line with
        | [] => Raise ValueError
        | _ =>
          do (r, line, f) <- read_next_result_batch line f;
          match line with
          | [] => Ok [(a, r)]
          | _ => do rest <- read_entries fuel' f; Ok ((a, r) :: rest)
          end
        end
      end
    end.
  Definition read_all (file : list text) : res (list (algorithm * results)) := read_entries (S (length file)) file.
End ReadResults.

(** ** write_all_results, lines 221-276.  [fmt] is str() of a float and [fmt_int]
    str() of an integer. *)
Section Write.
  Context (fmt : Q -> text) (fmt_int : Z -> text).
  (** toNullable, lines 234-235. *)
  Definition to_nullable (v : Q) : text := if Qlt_le_dec v (9 # 10) then [] else fmt v.
  Definition comma : text := T ",".
  (** int(). *)
  Definition int_of (q : Q) : Z := Z.quot (Qnum q) (Zpos (Qden q)).

  (** Line 59 and lines 251-275. *)
  Definition write_row (a : algorithm) (r : results) (g : range) (i : nat) : text :=
    quote_text (a_name a) ++ comma ++ a_topics a ++ comma ++ quote_text (a_desc a) ++ comma ++
    fmt (r_mrr r) ++ comma ++ fmt (r_map r) ++ comma ++ to_nullable (r_perp r) ++ comma ++
    quote_text (range_name g) ++ comma ++ nth i m_names [] ++ comma ++
    fmt_int (int_of (e_docs (r_precs r g))) ++ comma ++
    fmt (nth i (e_vals (r_precs r g)) 0%Q) ++ comma ++ fmt (nth i (e_vals (r_recs r g)) 0%Q).

  (** Line 245. *)
  Definition titles : list text :=
    [T "Algor"; T "TopicCount"; T "TrainDesc"; T "MRR"; T "MAP"; T "Perplexity"; T "Group"; T "M"; T "DocCount"; T "Precision"; T "Recall"].
  Definition write_all (rs : list (algorithm * results)) : list text :=
    join_with comma titles ::
    flat_map (fun '(a, r) => flat_map (fun g => map (write_row a r g) (seq 0 Ms)) FullGroups) rs.
End Write.
