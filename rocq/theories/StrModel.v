(** * Model of the text handling of the scripts in /repo/sidetopics/run.
    A Python string is a list of characters (codes 0-255). *)
From Coq Require Import Ascii String DecimalString Arith Bool List.
From Verif Require Import Base.
Import ListNotations.
Open Scope nat_scope.
Open Scope list_scope.

Notation text := (list ascii) (only parsing).
Definition T (s : string) : text := list_ascii_of_string s.
Definition teqb (a b : text) : bool := if list_eq_dec ascii_dec a b then true else false.

(** str(n) of a non-negative integer. *)
Definition str (n : nat) : text := T (NilEmpty.string_of_uint (Nat.to_uint n)).

(** s.replace(c, r) for a single character. *)
Definition replace1 (c : ascii) (r : text) (s : text) : text :=
  flat_map (fun x => if ascii_dec x c then r else [x]) s.

(** s.split(c) for a single character. *)
Fixpoint split_on (c : ascii) (s : text) : list text :=
  match s with
  | [] => [[]]
  | x :: s' =>
    if ascii_dec x c then [] :: split_on c s'
    else match split_on c s' with
         | [] => [[x]]
         | w :: ws => (x :: w) :: ws
         end
  end.

(** s.strip(): the characters for which str.isspace() holds. *)
Definition is_space (c : ascii) : bool :=
  let n := nat_of_ascii c in
  ((9 <=? n) && (n <=? 13)) || ((28 <=? n) && (n <=? 32)) || (n =? 133) || (n =? 160).
Fixpoint lstrip (s : text) : text :=
  match s with
  | [] => []
  | c :: s' => if is_space c then lstrip s' else s
  end.
Definition strip (s : text) : text := rev (lstrip (rev (lstrip s))).

(** ** parse_dtype and parse_dtypes, __main__.py lines 352-379 *)
Inductive np_dtype := Float64 | Float32 | Int32 | UInt16.

Definition is_one_of (s : text) (l : list string) : bool := existsb (fun x => teqb s (T x)) l.

Definition parse_dtype (s : text) : res np_dtype :=
  if is_one_of s ["f8"; "F8"; "f64"; "F64"]%string then Ok Float64
  else if is_one_of s ["f4"; "F4"; "f32"; "F32"]%string then Ok Float32
  else if is_one_of s ["i4"; "I4"; "i32"; "I32"]%string then Ok Int32
  else if is_one_of s ["u2"; "U2"; "u16"; "U16"]%string then Ok UInt16
  else Raise ValueError.

Definition parse_dtypes (s : text) : res (np_dtype * np_dtype) :=
  match map strip (split_on ":"%char s) with
  | [a] => do x <- parse_dtype a; do y <- parse_dtype a; Ok (x, y)
  | a :: b :: _ => do x <- parse_dtype a; do y <- parse_dtype b; Ok (x, y)
  | [] => Raise IndexError
  end.

(** ** newModelFile, lines 1224-1239, without the directory; [stamp] is the
    formatted time. *)
Definition file_name (name : text) (K : nat) (P fold : option nat) (stamp : text) : text :=
  let name := replace1 "-"%char (T "_") (replace1 "/"%char (T "_") name) in
  let cfg := T "k_" ++ str K ++ match P with None => [] | Some p => T "_p_" ++ str p end in
  let foldDesc := match fold with None => [] | Some f => T "fold_" ++ str f ++ T "_" end in
  name ++ T "_" ++ cfg ++ T "_" ++ foldDesc ++ stamp ++ T ".pkl".

(** The name given by save_model, lines 760-763; [P] is the attribute P of the
    model, [None] if it has none. *)
Definition saved_name (name : text) (K : nat) (P : option nat) (fold : nat) (stamp : text) : text :=
  file_name name K (Some (match P with None => 0 | Some p => p end)) (Some fold) stamp.

(** The name given by newModelFileFromModel, lines 1214-1220. *)
Definition name_from_model (name : text) (K : nat) (P : option nat) (fold : option nat) (stamp : text) : res text :=
  if teqb (firstn 3 name) (T "ctm") then Ok (file_name name K None fold stamp)
  else match P with
       | None => Raise AttributeError
       | Some p => Ok (file_name name K (Some p) fold stamp)
       end.

(** ** The file name patterns of report_generator.py, lines 22-23, and re.match
    (a match at the beginning of the name suffices). *)
Inductive item := Lit (c : ascii) | Digit | AnyChar.
Definition is_digit (c : ascii) : bool := (48 <=? nat_of_ascii c) && (nat_of_ascii c <=? 57).
Definition item_ok (i : item) (c : ascii) : bool :=
  match i with
  | Lit x => if ascii_dec x c then true else false
  | Digit => is_digit c
  | AnyChar => negb (nat_of_ascii c =? 10)
  end.
Fixpoint re_match (p : list item) (s : text) : bool :=
  match p, s with
  | [], _ => true
  | i :: p', c :: s' => item_ok i c && re_match p' s'
  | _ :: _, [] => false
  end.
Definition lits (s : text) : list item := map Lit s.
Definition stamp_items : list item :=
  [Digit] ++ lits (T "_") ++ repeat Digit 8 ++ lits (T "_") ++ repeat Digit 4 ++ [AnyChar] ++ lits (T "pkl").

(** r"ctm_%s_k_%d_fold_\d_\d{8}_\d{4}.pkl" % (bound, k) *)
Definition ctm_pattern (bound : text) (k : nat) : list item :=
  lits (T "ctm_" ++ bound ++ T "_k_" ++ str k ++ T "_fold_") ++ stamp_items.
(** r"stm_yv_%s_k_%d_p_%d_fold_\d_\d{8}_\d{4}.pkl" % (bound, k, p) *)
Definition stm_pattern (bound : text) (k p : nat) : list item :=
  lits (T "stm_yv_" ++ bound ++ T "_k_" ++ str k ++ T "_p_" ++ str p ++ T "_fold_") ++ stamp_items.

(** ** The choice of model in report_generator.run, lines 78-103.  The result is
    the kind of report and the bounds for which reports are generated. *)
Inductive report_kind := CtmReport | StmReport.
Definition ends_with (s suffix : text) : bool :=
  (length suffix <=? length s) && teqb (skipn (length s - length suffix) s) suffix.

Definition choose_report (model : text) (dataset : text) : res (report_kind * list text) :=
  let bohning := T "bohning" in
  let bouchard := T "bouchard" in
  let '(bounds, name) :=
    if ends_with model bohning then ([bohning], firstn (length model - length bohning) model)
    else if ends_with model bouchard then ([bouchard], firstn (length model - length bouchard) model)
    else ([bouchard; bohning], model) in
  if teqb name (T "ctm") then
    if teqb dataset (T "tweets") then Ok (CtmReport, bounds) else Raise ValueError
  else if teqb name (T "stm_yv") then Ok (StmReport, bounds)
  else Raise ValueError.

(** ** quoteText, reshape_results.py lines 237-242, with the constants of lines
    230-232. *)
Definition quote : ascii := """"%char.
Definition quote_text (s : text) : text :=
  let s := replace1 quote [quote; quote] s in
  let s := replace1 quote [quote; quote] s in
  [quote] ++ s ++ [quote].

(** ** eliminateParentheses, arxiv_to_aan.py lines 139-159 *)
Fixpoint eliminate_from (inside : nat) (s : text) : text :=
  match s with
  | [] => []
  | c :: s' =>
    match inside with
    | S n =>
      if ascii_dec c ")"%char then eliminate_from n s'
      else if ascii_dec c "("%char then eliminate_from (S (S n)) s'
      else eliminate_from (S n) s'
    | 0 =>
      if ascii_dec c "("%char then eliminate_from 1 s'
      else c :: eliminate_from 0 s'
    end
  end.
Definition eliminate_parentheses (s : text) : text := eliminate_from 0 s.

(** ** stripBraces, arxiv_to_aan.py lines 83-84, and one field of a record (87). *)
Definition strip_braces (s : text) : text :=
  map (fun c => if ascii_dec c "{"%char then "("%char else if ascii_dec c "}"%char then ")"%char else c) s.
Definition title_field (title : text) : text := T "title={" ++ strip_braces title ++ T "}".

(** ** parse_features_mask, __main__.py lines 1241-1250.  [to_int] is int(): it
    raises ValueError for text that is not a number. *)
Definition parse_features_mask (to_int : text -> res nat) (arg : option text) : res (option (list (text * nat))) :=
  match arg with
  | None => Ok None
  | Some s =>
    do l <- mapM (fun part =>
        let sub := split_on ":"%char part in
        do a <- get_ sub 0; do b <- get_ sub 1; do n <- to_int b; Ok (a, n)) (split_on ","%char s);
    Ok (Some l)
  end.
