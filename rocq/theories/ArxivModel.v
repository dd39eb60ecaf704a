(** * Model of the conversion of arXiv abstracts to the ACL format,
    /repo/sidetopics/run/arxiv_to_aan.py, and of the numbering of authors,
    /repo/sidetopics/run/arxiv_author_ids.py.  A file is its list of lines, each
    with its line feed. *)
From Coq Require Import Ascii String List ZArith Arith Bool.
From Verif Require Import Base StrModel ReshapeModel.
Import ListNotations.
Open Scope nat_scope.
Open Scope list_scope.

(** s.lower(), for the characters 0-255. *)
Definition lower_char (c : ascii) : ascii :=
  let n := nat_of_ascii c in
  if (65 <=? n) && (n <=? 90) || (192 <=? n) && (n <=? 222) && negb (n =? 215) then ascii_of_nat (n + 32) else c.
Definition py_lower (s : text) : text := map lower_char s.

(** ** bibtex_to_acl_author, lines 50-72 *)
(** Line 66. *)
Definition suffixes : list string := ["i"; "ii"; "iii"; "jr"; "jr."; "sr"; "sr."; "phd"; "phd."]%string.
(** Line 69. *)
Definition particles : list string := ["mc"; "mac"; "o"; "d'"; "de"; "del"; "della"; "di"; "van"; "von"]%string.
(** Lines 65-72, on the parts in reverse order: [last] is parts[-1], [prev] is
    parts[-2], and [before] the others, from the right. *)
Definition long_name (last prev : text) (before : list text) : text :=
  let '(last, rest) :=
    if is_one_of (py_lower last) suffixes then (prev ++ T " " ++ last, before) else (last, prev :: before) in
  match rest with
  | p :: ((_ :: _) as b) =>
    if is_one_of (py_lower p) particles then p ++ T " " ++ last ++ T ", " ++ join_with (T " ") (rev b)
    else last ++ T ", " ++ join_with (T " ") (rev rest)
  | _ => last ++ T ", " ++ join_with (T " ") (rev rest)
  end.
Definition bibtex_to_acl_author (bib_author : text) : text :=
  let parts := split_on " "%char (strip bib_author) in
  match parts with
  | [] => []
  | [p] =>
    match rev (split_on "."%char p) with
    | [] => []
    | [q] => q
    | q :: before => q ++ T ", " ++ join_with (T ". ") (rev before) ++ T "."
    end
  | [p; q] => q ++ T ", " ++ p
  | _ =>
    match rev parts with
    | last :: prev :: before => long_name last prev before
    | _ => []
    end
  end.

(** ** read_next_key_value, lines 95-136 *)
(** Dashes (line 8), matched against stripped lines. *)
Definition dashes (s : text) : bool := forallb (fun c => Ascii.eqb c "-"%char) s && (15 <=? length s).
(** Lines 115-116. *)
Definition skippable (line : text) : bool := teqb line [] || dashes line.
(** StartsWithWhiteSpace (line 9): two blanks, and a character that is not one. *)
Definition continues (line : text) : bool :=
  match line with
  | a :: b :: _ => is_space a && is_space b && negb (forallb is_space line)
  | _ => false
  end.
Definition marker : text := T "\\".
(** Lines 119-121. *)
Fixpoint next_line (line : text) (lines : list text) : text * list text :=
  if skippable line then
    match lines with
    | [] => (line, [])
    | l :: r => next_line (strip l) r
    end
  else (line, lines).
(** Lines 131-134. *)
Fixpoint more_value (value : text) (lines : list text) : text * list text :=
  match lines with
  | l :: r => if negb (teqb l marker) && continues l then more_value (value ++ T " " ++ strip l) r else (value, lines)
  | [] => (value, [])
  end.
(** s.split(c, maxsplit=1). *)
Fixpoint split_once (c : ascii) (s : text) : list text :=
  match s with
  | [] => [[]]
  | x :: s' =>
    if ascii_dec x c then [[]; s']
    else match split_once c s' with
         | [] => [[x]]
         | w :: ws => (x :: w) :: ws
         end
  end.
Definition read_next_key_value (lines : list text) : res (option (text * text) * list text) :=
  let (line, lines) := next_line [] lines in
  if skippable line then Ok (None, lines)
  else if teqb line marker then Ok (None, lines)
  else
    let parts := split_once ":"%char line in
    do k <- get_ parts 0;
    do v <- get_ parts 1;
    let (v, lines) := more_value (strip v) lines in
    Ok (Some (py_lower (strip k), v), lines).

(** ** BibTextNameDelimiter.split, lines 10 and 193 *)
Fixpoint span_spaces (s : text) : text * text :=
  match s with
  | c :: s' => if is_space c then let (a, b) := span_spaces s' in (c :: a, b) else ([], s)
  | [] => ([], [])
  end.
(** The rest of the text after a delimiter at its beginning. *)
Definition delimiter (s : text) : option text :=
  let (ws, r) := span_spaces s in
  match r with
  | c :: r' =>
    if ascii_dec c ","%char then Some (snd (span_spaces r'))
    else match ws with
         | [] => None
         | _ =>
           if starts (T "and") r then
             match span_spaces (skipn 3 r) with
             | ([], _) => None
             | (_, r'') => Some r''
             end
           else None
         end
  | [] => None
  end.
(** The parts between delimiters; [fuel] is at least the length of the text. *)
Fixpoint split_names (fuel : nat) (s : text) : list text :=
  match fuel with
  | 0 => [[]]
  | S fuel' =>
    match delimiter s with
    | Some r => [] :: split_names fuel' r
    | None =>
      match s with
      | [] => [[]]
      | c :: s' => match split_names fuel' s' with
                   | [] => [[c]]
                   | w :: ws => (c :: w) :: ws
                   end
      end
    end
  end.
(** Lines 192-193. *)
Definition read_authors (value : text) : list text :=
  let value := eliminate_parentheses value in
  map strip (filter (fun a => 0 <? length (strip a)) (split_names (S (length value)) value)).

(** ** PaperMetadata and read_paper_metadata, lines 12-40 and 162-202.  [to_int]
    is int(). *)
Record paper := mkPaper { arxiv_id : Z; p_title : option text; p_authors : list text; p_venue : option text; p_year : Z }.
Definition is_some {A} (o : option A) : bool := match o with Some _ => true | None => false end.
Definition complete_except_for_venue (p : paper) : bool :=
  ((0 <? arxiv_id p)%Z && is_some (p_title p) && (0 <? length (p_authors p)) && (0 <? p_year p)%Z)%bool.
Definition complete (p : paper) : bool := complete_except_for_venue p && is_some (p_venue p).

(** Lines 191-197. *)
Definition take_field (p : paper) (key value : text) : paper :=
  if is_one_of key ["author"; "authors"]%string then mkPaper (arxiv_id p) (p_title p) (read_authors value) (p_venue p) (p_year p)
  else if teqb key (T "title") then mkPaper (arxiv_id p) (Some value) (p_authors p) (p_venue p) (p_year p)
  else if teqb key (T "journal-ref") then
    mkPaper (arxiv_id p) (p_title p) (p_authors p) (Some (hd [] (split_on " "%char (strip value)))) (p_year p)
  else p.
(** Lines 186-197; every round takes a line. *)
Fixpoint read_fields (fuel : nat) (p : paper) (lines : list text) : res paper :=
  if complete p then Ok p
  else match fuel with
       | 0 => Ok p
       | S fuel' =>
         do (kv, lines) <- read_next_key_value lines;
         match kv with
         | None => Ok p
         | Some (k, v) => read_fields fuel' (take_field p k v) lines
         end
       end.
Definition read_paper_metadata (to_int : text -> res Z) (fname : text) (lines : list text) : res paper :=
  do id <- to_int (firstn (length fname - 4) fname);
  do y <- to_int (firstn 2 fname);
  let year := (if 90 <=? y then y + 1900 else y + 2000)%Z in
  let lines := skipn 2 lines in
  do p <- read_fields (S (length lines)) (mkPaper id None [] None year) lines;
  if complete_except_for_venue p then Ok p else Raise ValueError.

(** ** write_paper_metadata, lines 75-92; [fmt] is "%d". *)
Definition field_line (key : string) (value : text) : text := T key ++ T "={" ++ value ++ T "}" ++ [ascii_of_nat 10].
Definition author_value (p : paper) : text := strip_braces (join_with (T "; ") (map bibtex_to_acl_author (p_authors p))).
Definition write_paper_metadata (fmt : Z -> text) (p : paper) : list text :=
  [field_line "id" (fmt (arxiv_id p)); field_line "title" (strip_braces (match p_title p with Some t => t | None => T "None" end));
   field_line "author" (author_value p)] ++
  match p_venue p with Some v => [field_line "venue" (strip_braces v)] | None => [] end ++
  [field_line "year" (fmt (p_year p)); [ascii_of_nat 10]].

(** ** run_on_dirs, lines 217-231: the files of one directory with their lines;
    only ValueError is caught. *)
Fixpoint convert_files (to_int : text -> res Z) (fmt : Z -> text) (files : list (text * list text)) : res (list text) :=
  match files with
  | [] => Ok []
  | (name, lines) :: r =>
    if teqb (skipn (length name - 4) name) (T ".abs") then
      match read_paper_metadata to_int name lines with
      | Ok p => do rest <- convert_files to_int fmt r; Ok (write_paper_metadata fmt p ++ rest)
      | Raise ValueError => convert_files to_int fmt r
      | Raise e => Raise e
      end
    else convert_files to_int fmt r
  end.

(** ** arxiv_author_ids.run, lines 8-25 *)
(** Lines 12-17: the names of one line. *)
Definition names_of_line (line : text) : res (list text) :=
  if teqb (firstn 6 line) (T "author") then
    do core <- get_ (split_on "{"%char line) 1;
    do core <- get_ (split_on "}"%char core) 0;
    Ok (map strip (split_on ";"%char (strip core)))
  else Ok [].
(** The order of strings. *)
Fixpoint tle (a b : text) : bool :=
  match a, b with
  | [], _ => true
  | _ :: _, [] => false
  | x :: a', y :: b' =>
    (nat_of_ascii x <? nat_of_ascii y) || ((nat_of_ascii x =? nat_of_ascii y) && tle a' b')
  end.
(** authors.add and author_list.sort(). *)
Fixpoint add_name (a : text) (l : list text) : list text :=
  match l with
  | [] => [a]
  | b :: r => if teqb a b then l else if tle a b then a :: l else b :: add_name a r
  end.
Definition author_list (file : list text) : res (list text) :=
  do names <- mapM names_of_line file;
  Ok (fold_right add_name [] (concat names)).
(** Lines 20-25. *)
Definition author_ids (file : list text) : res (list (nat * text)) :=
  do l <- author_list file; Ok (combine (seq 1 (length l)) l).
