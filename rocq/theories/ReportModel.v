(** * Model of the report generator, run/report_generator.py lines 17-247: notebooks made
    from templates for the outputs of every configuration.  File name patterns and the
    choice of model are those of StrModel.

    Simplified: files are texts kept by path; directories exist and can be written;
    the names in the directory of outputs are an argument and do not change (no report
    is named like an output: ReportProps.C250_reports_are_not_outputs).  What is printed is left out. *)
From Coq Require Import Ascii String Arith Bool List.
From Verif Require Import Base StrModel.
Import ListNotations.
Open Scope nat_scope.
Open Scope list_scope.

(** ** string.Template.substitute (line 131), Python's Lib/string.py: [$$] is a dollar,
    [$name] and [${name}] are replaced, anything else after a dollar raises ValueError;
    unknown names raise KeyError.  Names are letters, digits and underscores of ASCII. *)
Definition is_letter (c : ascii) : bool :=
  let n := nat_of_ascii c in ((65 <=? n) && (n <=? 90)) || ((97 <=? n) && (n <=? 122)).
Definition name_start (c : ascii) : bool := is_letter c || (nat_of_ascii c =? 95).
Definition name_char (c : ascii) : bool := name_start c || is_digit c.
Fixpoint span (p : ascii -> bool) (s : text) : text * text :=
  match s with
  | [] => ([], [])
  | c :: r => if p c then let (a, b) := span p r in (c :: a, b) else ([], s)
  end.
Definition dollar : ascii := "$"%char.
Definition key (m : list (text * text)) (n : text) : res text :=
  match find (fun '(k, _) => teqb k n) m with Some (_, v) => Ok v | None => Raise KeyError end.
(** [fuel] is the length of the template; every step uses up a character. *)
Fixpoint substitute_from (fuel : nat) (m : list (text * text)) (s : text) : res text :=
  match fuel with
  | 0 => Ok []
  | S fuel =>
    match s with
    | [] => Ok []
    | c :: r =>
      if ascii_dec c dollar then
        match r with
        | [] => Raise ValueError
        | d :: r' =>
          if ascii_dec d dollar then do t <- substitute_from fuel m r'; Ok (dollar :: t)
          else if name_start d then
            let (n, rest) := span name_char r in
            do v <- key m n; do t <- substitute_from fuel m rest; Ok (v ++ t)
          else if ascii_dec d "{"%char then
            let (n, rest) := span name_char r' in
            match n, rest with
            | a :: _, e :: rest' =>
              if name_start a && (if ascii_dec e "}"%char then true else false) then
                do v <- key m n; do t <- substitute_from fuel m rest'; Ok (v ++ t)
              else Raise ValueError
            | _, _ => Raise ValueError
            end
          else Raise ValueError
        end
      else do t <- substitute_from fuel m r; Ok (c :: t)
    end
  end.
Definition substitute (m : list (text * text)) (s : text) : res text := substitute_from (length s) m s.

(** ** Files *)
Definition disk := list (text * text).
Definition content (d : disk) (p : text) : option text := option_map snd (find (fun '(q, _) => teqb q p) d).
Definition write (p c : text) (d : disk) : disk := (p, c) :: d.
Definition slash : text := T "/".

(** os.path.dirname for paths in which no two slashes follow each other: what is in front of
    the last slash. *)
Definition dirname (p : text) : text :=
  match snd (span (fun c => if ascii_dec c "/"%char then false else true) (rev p)) with
  | [] => []
  | _ :: r => rev r
  end.
(** TemplateDir, line 20, and CodeDir, line 21, from the path of the module. *)
Definition default_template_dir (file : text) : text := dirname (dirname file) ++ slash ++ T "notebooks".
Definition code_dir (file : text) : text := dirname (default_template_dir file).

(** templateName, lines 125-126. *)
Definition template_name (k : report_kind) (dataset : text) : text :=
  match k with
  | CtmReport => T "CtmResultsSheet-Template.ipynb"
  | StmReport => if teqb dataset (T "tweets") then T "StmResultsSheet-Template.ipynb" else T "StmResultsSheet-Nips-Template.ipynb"
  end.
(** str.capitalize *)
Definition upper (c : ascii) : ascii := let n := nat_of_ascii c in if (97 <=? n) && (n <=? 122) then ascii_of_nat (n - 32) else c.
Definition down (c : ascii) : ascii := let n := nat_of_ascii c in if (65 <=? n) && (n <=? 90) then ascii_of_nat (n + 32) else c.
Definition capitalize (s : text) : text := match s with [] => [] | c :: r => upper c :: map down r end.
(** implNames, lines 41-42. *)
Definition impl_name (k : report_kind) (bound : text) : res text :=
  let base := match k with CtmReport => T "ctm" | StmReport => T "stm_yv" end in
  if teqb bound (T "bouchard") then Ok base else if teqb bound (T "bohning") then Ok (base ++ T "_bohning") else Raise KeyError.
Fixpoint join (sep : text) (l : list text) : text :=
  match l with [] => [] | [x] => x | x :: r => x ++ sep ++ join sep r end.
Definition quoted (s : text) : text := T "'" ++ s ++ T "'".
(** The arguments of substitute, lines 131-136. *)
Definition settings (file outdir : text) (k : report_kind) (bound impl : text) (fnames : list text) : list (text * text) :=
  [(T "bound", capitalize bound);
   (T "codePath", quoted (code_dir file));
   (T "outFilesPrefix", quoted (outdir ++ slash));
   (T "outputFiles", join (T ", ") (map (fun f => T "outputPathPrefix + " ++ quoted f) fnames));
   (T "implName", impl)].

(** _generate_report, lines 107-143: what is on disk afterwards, and the number of folds or
    the exception. *)
Definition generate_report (file outdir : text) (names : list text) (tdir dataset : text) (k : report_kind)
    (pat : list item) (report bound : text) (d : disk) : disk * res nat :=
  let fnames := filter (re_match pat) names in
  match length fnames with
  | 0 => (d, Ok 0)
  | folds =>
    match content d (tdir ++ slash ++ template_name k dataset) with
    | None => (d, Raise OtherError)
    | Some template =>
      match impl_name k bound with
      | Raise e => (d, Raise e)
      | Ok impl =>
        match substitute (settings file outdir k bound impl fnames) template with
        | Raise e => (d, Raise e)
        | Ok text => (write report text d, Ok folds)
        end
      end
    end
  end.

(** A configuration: the report's path, the pattern of its outputs and the bound. *)
Definition config := (text * list item * text)%type.
Definition ctm_config (rdir bound : text) (k : nat) : config :=
  (rdir ++ slash ++ T "ctm_" ++ bound ++ T "_k_" ++ str k ++ T ".ipynb", ctm_pattern bound k, bound).
Definition stm_config (rdir bound : text) (k p : nat) : config :=
  (rdir ++ slash ++ T "stm_yv_" ++ bound ++ T "_k_" ++ str k ++ T "_p_" ++ str p ++ T ".ipynb", stm_pattern bound k p, bound).
Definition ctm_configs (rdir : text) (bounds : list text) (ks : list nat) : list config :=
  flat_map (fun b => map (fun k => ctm_config rdir b k) ks) bounds.
Definition stm_configs (rdir : text) (bounds : list text) (ks ps : list nat) : list config :=
  flat_map (fun b => flat_map (fun k => map (fun p => stm_config rdir b k p) ps) ks) bounds.

(** The loops, lines 175-181 and 217-224; [results] is a dict, the last entry first. *)
Fixpoint generate_all (file outdir : text) (names : list text) (tdir dataset : text) (k : report_kind)
    (cs : list config) (results : list (text * nat)) (d : disk) : disk * res (list (text * nat)) :=
  match cs with
  | [] => (d, Ok results)
  | (report, pat, bound) :: cs =>
    match generate_report file outdir names tdir dataset k pat report bound d with
    | (d, Raise e) => (d, Raise e)
    | (d, Ok n) => generate_all file outdir names tdir dataset k cs ((report, n) :: results) d
    end
  end.
Definition folds_of (results : list (text * nat)) (report : text) : option nat :=
  option_map snd (find (fun '(q, _) => teqb q report) results).

(** _copyIfAbsent, lines 239-246, and _copyPdfConversionFiles, lines 230-236. *)
Definition copy_if_absent (dst src fname : text) (d : disk) : disk * res unit :=
  match content d (dst ++ slash ++ fname) with
  | Some _ => (d, Ok tt)
  | None =>
    match content d (src ++ slash ++ fname) with
    | None => (d, Raise OtherError)
    | Some c => (write (dst ++ slash ++ fname) c d, Ok tt)
    end
  end.
Definition latex_template : text := T "article_nocode.tplx".
Definition pdf_script : text := T "convert-to-pdf.sh".
Definition copy_conversion (rdir tdir : text) (d : disk) : disk * res unit :=
  match copy_if_absent rdir tdir latex_template d with
  | (d, Raise e) => (d, Raise e)
  | (d, Ok _) => copy_if_absent rdir tdir pdf_script d
  end.

(** generate_reports_ctm and generate_reports_stm_yv, lines 145-227. *)
Definition generate_reports (file outdir : text) (names : list text) (rdir : text) (tdir : option text) (dataset : text)
    (k : report_kind) (cs : list config) (d : disk) : disk * res (list (text * nat)) :=
  let tdir := match tdir with None => default_template_dir file | Some t => t end in
  match generate_all file outdir names tdir dataset k cs [] d with
  | (d, Raise e) => (d, Raise e)
  | (d, Ok results) =>
    match copy_conversion rdir tdir d with
    | (d, Raise e) => (d, Raise e)
    | (d, Ok _) => (d, Ok results)
    end
  end.

(** run, lines 78-103.  [to_int] is Python's int().  latentSizes is only bound if the
    option is there, lines 90-91. *)
Definition run_reports (to_int : text -> res nat) (file : text) (names : list text)
    (model topic_counts : text) (latent_sizes : option text) (outdir rdir : text) (tdir : option text) (dataset : text)
    (d : disk) : disk * res unit :=
  match mapM to_int (split_on ","%char topic_counts) with
  | Raise e => (d, Raise e)
  | Ok ks =>
    match match latent_sizes with None => Ok None | Some s => do ps <- mapM to_int (split_on ","%char s); Ok (Some ps) end with
    | Raise e => (d, Raise e)
    | Ok ps =>
      match choose_report model dataset with
      | Raise e => (d, Raise e)
      | Ok (CtmReport, bounds) =>
        let (d, r) := generate_reports file outdir names rdir tdir (T "tweets") CtmReport (ctm_configs rdir bounds ks) d in
        (d, do _ <- r; Ok tt)
      | Ok (StmReport, bounds) =>
        match ps with
        | None => (d, Raise UnboundLocalError)
        | Some ps =>
          let (d, r) := generate_reports file outdir names rdir tdir dataset StmReport (stm_configs rdir bounds ks ps) d in
          (d, do _ <- r; Ok tt)
        end
      end
    end
  end.
