(** * Metadata of arXiv abstracts (C216-C218) and numbers of authors (C219) *)
From Coq Require Import Ascii String List ZArith Arith Bool Lia Permutation Sorting.Sorted.
From Verif Require Import Base StrModel StrProps SelProps ReshapeModel ReshapeProofs ArxivModel ArxivProofs.
Import ListNotations.
Open Scope nat_scope.
Open Scope list_scope.

(** ** C216: the fields of an abstract *)
(** A field: its key, the value on the same line, and the lines that continue it. *)
Record field := mkField { f_key : text; f_val : text; f_more : list text }.
Definition first_of (f : field) : text := f_key f ++ T ":" ++ f_val f ++ nl.
Definition field_lines (f : field) : list text := first_of f :: f_more f.
(** A line continues a field if it begins with two blanks and is not blank. *)
Definition indented (l : text) : Prop :=
  (exists a b r, l = a :: b :: r /\ is_space a = true /\ is_space b = true) /\ exists c, In c l /\ is_space c = false.
Definition field_ok (f : field) : Prop := ~ In ":"%char (f_key f) /\ ~ indented (first_of f) /\ Forall indented (f_more f).
(** Lines between fields: blank, or fifteen or more dashes, not indented. *)
Definition gap_line (l : text) : Prop :=
  (strip l = [] \/ (Forall (fun c => c = "-"%char) (strip l) /\ 15 <= length (strip l))) /\ ~ indented l.
(** The name of a field and its value. *)
Definition key_of (f : field) : text := py_lower (strip (f_key f)).
Definition value_of (f : field) : text := join_with (T " ") (strip (f_val f) :: map strip (f_more f)).

Lemma continues_iff l : continues l = true <-> indented l.
Proof.
  split.
  - intros H. destruct l as [|a [|b r]]; try discriminate. cbn [continues] in H. apply andb_prop in H as [H C]. apply andb_prop in H as [A B].
    split; [exists a, b, r; auto|]. apply negb_true_iff in C.
    assert (G : forall s, forallb is_space s = false -> exists c, In c s /\ is_space c = false).
    { clear. induction s as [|c s IH]; intros H; [discriminate|]. cbn [forallb] in H. destruct (is_space c) eqn:E.
      - destruct (IH H) as (d & D & F). exists d. split; [right; exact D|exact F].
      - exists c. split; [left; reflexivity|exact E]. }
    apply G, C.
  - intros ((a & b & r & -> & A & B) & (c & Hc & D)). cbn [continues]. rewrite A, B. cbn [andb]. apply negb_true_iff.
    destruct (forallb is_space (a :: b :: r)) eqn:E; [|reflexivity]. rewrite forallb_forall in E. rewrite (E c Hc) in D. discriminate.
Qed.
Lemma continues_false l : ~ indented l -> continues l = false.
Proof. rewrite <- continues_iff. destruct (continues l); congruence. Qed.
Lemma gap_skippable l : gap_line l -> skippable (strip l) = true /\ continues l = false.
Proof.
  intros (H & N). split; [|apply continues_false, N]. unfold skippable. destruct H as [->|(F & L)]; [reflexivity|].
  apply orb_true_iff. right. unfold dashes. apply andb_true_iff. split; [|apply Nat.leb_le, L].
  rewrite forallb_forall. rewrite Forall_forall in F. intros c Hc. apply Ascii.eqb_eq, F, Hc.
Qed.
Lemma next_gap gap : forall line rest, skippable line = true -> Forall gap_line gap -> exists line', skippable line' = true /\ next_line line (gap ++ rest) = next_line line' rest.
Proof.
  induction gap as [|g gap IH]; intros line rest S F; [exists line; auto|]. inversion F as [|? ? G F']; subst. cbn [app next_line]. rewrite S.
  destruct (gap_skippable g G) as (G1 & _). apply IH; assumption.
Qed.
Lemma more_value_spec ms rest v : Forall indented ms -> (forall l r, rest = l :: r -> ~ indented l) ->
  more_value v (ms ++ rest) = (v ++ concat (map (fun l => T " " ++ strip l) ms), rest).
Proof.
  revert v. induction ms as [|l ms IH]; intros v F R.
  - cbn [app map concat]. rewrite app_nil_r. destruct rest as [|l r]; [reflexivity|]. cbn [more_value]. rewrite continues_false by (apply (R l r eq_refl)).
    rewrite andb_false_r. reflexivity.
  - inversion F as [|? ? I F']; subst. cbn [app more_value map concat].
    assert (M : teqb l marker = false).
    { destruct (teqb l marker) eqn:E; [|reflexivity]. apply teqb_eq in E. subst l. destruct I as ((a & b & r & E & A & _) & _). injection E as <- _ _. discriminate A. }
    rewrite M. apply continues_iff in I. rewrite I. cbn [negb andb]. rewrite IH by assumption. rewrite <- !app_assoc. reflexivity.
Qed.
Lemma join_concat sep l : forall a, join_with sep (a :: l) = a ++ concat (map (fun x => sep ++ x) l).
Proof.
  induction l as [|b l IH]; intros a; [cbn; rewrite app_nil_r; reflexivity|].
  change (join_with sep (a :: b :: l)) with (a ++ sep ++ join_with sep (b :: l)). rewrite IH. cbn [map concat]. rewrite <- app_assoc. reflexivity.
Qed.
Lemma first_strip f : strip (first_of f) = lstrip (f_key f) ++ ":"%char :: rstrip (f_val f ++ nl).
Proof. apply (strip_colon (f_key f) (f_val f ++ nl)). Qed.
Lemma read_field gap f rest : Forall gap_line gap -> field_ok f -> (forall l r, rest = l :: r -> ~ indented l) ->
  read_next_key_value (gap ++ field_lines f ++ rest) = Ok (Some (key_of f, value_of f), rest).
Proof.
  intros G (NK & NI & MI) R. unfold read_next_key_value.
  destruct (next_gap gap [] (field_lines f ++ rest) eq_refl G) as (line' & S & ->).
  unfold field_lines. cbn [app next_line]. rewrite S.
  assert (X : skippable (strip (first_of f)) = false /\ teqb (strip (first_of f)) marker = false).
  { rewrite first_strip. split.
    - unfold skippable. apply orb_false_iff. split.
      + destruct (teqb _ _) eqn:E; [|reflexivity]. apply teqb_eq in E. destruct (lstrip (f_key f)); discriminate E.
      + unfold dashes. destruct (forallb _ _) eqn:E; [|reflexivity]. rewrite forallb_forall in E.
        specialize (E ":"%char ltac:(apply in_or_app; right; left; reflexivity)). discriminate E.
    - destruct (teqb _ _) eqn:E; [|reflexivity]. apply teqb_eq in E. assert (I : In ":"%char marker) by (rewrite <- E; apply in_or_app; right; left; reflexivity).
      cbn in I. intuition discriminate. }
  destruct X as (X1 & X2).
  assert (NL : next_line (strip (first_of f)) (f_more f ++ rest) = (strip (first_of f), f_more f ++ rest)).
  { destruct (f_more f ++ rest); cbn [next_line]; rewrite X1; reflexivity. }
  rewrite NL, X1, X2, first_strip. rewrite split_once_sep by (intros H; apply NK, lstrip_in, H). cbn [get_ nth_error bind].
  rewrite more_value_spec by assumption. rewrite strip_lstrip, strip_rstrip, strip_nl. unfold key_of, value_of.
  rewrite join_concat, map_map. reflexivity.
Qed.

(** What ends the fields: the end of the file, or a line with two backslashes, not
    indented. *)
Definition ending (ls : list text) : Prop :=
  exists gap, Forall gap_line gap /\ (ls = gap \/ exists m rest, ls = gap ++ m :: rest /\ strip m = T "\\" /\ ~ indented m).
Lemma read_ending ls : ending ls -> exists rest, read_next_key_value ls = Ok (None, rest).
Proof.
  intros (gap & G & E). unfold read_next_key_value. destruct E as [->|(m & rest & -> & M & _)].
  - destruct (next_gap gap [] [] eq_refl G) as (line' & S & X). rewrite app_nil_r in X. rewrite X. cbn [next_line]. rewrite S, S. eauto.
  - destruct (next_gap gap [] (m :: rest) eq_refl G) as (line' & S & ->). cbn [next_line]. rewrite S, M. destruct rest; cbn; eauto.
Qed.

(** The fields that matter. *)
Definition author_field (f : field) : bool := teqb (key_of f) (T "author") || teqb (key_of f) (T "authors").
Definition title_fld (f : field) : bool := teqb (key_of f) (T "title").
Definition venue_fld (f : field) : bool := teqb (key_of f) (T "journal-ref").
Definition the (sel : field -> bool) (fs : list field) : option text := option_map value_of (find sel fs).
(** At most one field is chosen. *)
Definition once (sel : field -> bool) (fs : list field) : Prop := length (filter sel fs) <= 1.

(** The file: gaps and fields, and the ending. *)
Definition block : Type := list text * field.
Definition block_lines (b : block) : list text := fst b ++ field_lines (snd b).
Definition block_ok (b : block) : Prop := Forall gap_line (fst b) /\ field_ok (snd b).

Definition expected (id year : Z) (fs : list field) : paper :=
  mkPaper id (the title_fld fs)
    (match the author_field fs with Some v => read_authors v | None => [] end)
    (match the venue_fld fs with Some v => Some (hd [] (split_on " "%char (strip v))) | None => None end) year.

Lemma the_cons sel f fs : the sel (f :: fs) = if sel f then Some (value_of f) else the sel fs.
Proof. unfold the. cbn [find]. destruct (sel f); reflexivity. Qed.
Lemma once_tail sel f fs : once sel (f :: fs) -> once sel fs /\ (sel f = true -> the sel fs = None).
Proof.
  unfold once. cbn [filter]. destruct (sel f) eqn:E; cbn [length]; intros H.
  - split; [lia|]. intros _. unfold the. destruct (find sel fs) as [g|] eqn:F; [|reflexivity]. apply find_some in F as (I & S).
    assert (In g (filter sel fs)) by (apply filter_In; auto). destruct (filter sel fs); [contradiction|cbn in H; lia].
  - split; [exact H|discriminate].
Qed.
Lemma not_indented_next bs stop : Forall block_ok bs -> ending stop ->
  forall l r, flat_map block_lines bs ++ stop = l :: r -> ~ indented l.
Proof.
  intros F (gap & G & E) l r H. destruct bs as [|(g, f) bs].
  - cbn [flat_map app] in H. destruct gap as [|g gap].
    + destruct E as [->|(m & rest & -> & M & N)]; [discriminate H|]. injection H as <- _. exact N.
    + apply Forall_inv in G as (_ & N). destruct E as [->|(m & rest & -> & M & _)]; injection H as <- _; exact N.
  - apply Forall_inv in F as (GG & FO). cbn [fst snd] in *. cbn [flat_map] in H. unfold block_lines in H at 1. cbn [fst snd] in H. destruct g as [|g0 g].
    + injection H as <- _. apply FO.
    + injection H as <- _. apply Forall_inv in GG as (_ & N). exact N.
Qed.
Definition merge (p : paper) (fs : list field) : paper :=
  mkPaper (arxiv_id p) (match the title_fld fs with Some v => Some v | None => p_title p end)
    (match the author_field fs with Some v => read_authors v | None => p_authors p end)
    (match the venue_fld fs with Some v => Some (hd [] (split_on " "%char (strip v))) | None => p_venue p end) (p_year p).
Lemma merge_step p f fs : once title_fld (f :: fs) -> once author_field (f :: fs) -> once venue_fld (f :: fs) ->
  merge (take_field p (key_of f) (value_of f)) fs = merge p (f :: fs).
Proof.
  intros O1 O2 O3. apply once_tail in O1 as (_ & N1). apply once_tail in O2 as (_ & N2). apply once_tail in O3 as (_ & N3).
  unfold merge. rewrite !the_cons. unfold take_field, is_one_of. cbn [existsb]. rewrite orb_false_r. change (teqb (key_of f) (T "author") || teqb (key_of f) (T "authors")) with (author_field f).
  change (teqb (key_of f) (T "title")) with (title_fld f). change (teqb (key_of f) (T "journal-ref")) with (venue_fld f).
  assert (D : (author_field f = true -> title_fld f = false /\ venue_fld f = false) /\ (title_fld f = true -> venue_fld f = false)).
  { unfold author_field, title_fld, venue_fld. split.
    - intros H. apply orb_prop in H as [H|H]; apply teqb_eq in H; rewrite H; split; reflexivity.
    - intros H. apply teqb_eq in H. rewrite H. reflexivity. }
  destruct D as (D1 & D2). destruct (author_field f) eqn:EA.
  - destruct (D1 eq_refl) as (-> & ->). rewrite (N2 eq_refl). reflexivity.
  - destruct (title_fld f) eqn:ET.
    + rewrite (D2 eq_refl). rewrite (N1 eq_refl). reflexivity.
    + destruct (venue_fld f) eqn:EV; [rewrite (N3 eq_refl); reflexivity|reflexivity].
Qed.
Lemma read_fields_spec bs : forall fuel p stop, Forall block_ok bs -> ending stop -> length bs < fuel ->
  once title_fld (map snd bs) -> once author_field (map snd bs) -> once venue_fld (map snd bs) ->
  (the title_fld (map snd bs) <> None -> p_title p = None) -> (the author_field (map snd bs) <> None -> p_authors p = []) ->
  (the venue_fld (map snd bs) <> None -> p_venue p = None) ->
  read_fields fuel p (flat_map block_lines bs ++ stop) = Ok (merge p (map snd bs)).
Proof.
  induction bs as [|(g, f) bs IH]; intros fuel p stop F ES L O1 O2 O3 I1 I2 I3.
  - assert (M : merge p (map snd (@nil block)) = p) by (destruct p; reflexivity). rewrite M. destruct fuel as [|fuel]; [cbn in L; lia|].
    cbn [read_fields flat_map app]. destruct (complete p); [reflexivity|]. destruct (read_ending stop ES) as (rest & ->). reflexivity.
  - destruct fuel as [|fuel]; [lia|]. cbn [read_fields]. destruct (complete p) eqn:C.
    + (* nothing is left to read *)
      unfold complete, complete_except_for_venue in C. apply andb_prop in C as (C & CV). apply andb_prop in C as (C & _).
      apply andb_prop in C as (C & CA). apply andb_prop in C as (_ & CT).
      f_equal. unfold merge. set (fs := @map (list text * field) field snd (@cons block (g, f) bs)) in *.
      destruct (the title_fld fs) eqn:E0; [rewrite I1 in CT by congruence; discriminate CT|].
      destruct (the author_field fs) eqn:E1; [rewrite I2 in CA by congruence; discriminate CA|].
      destruct (the venue_fld fs) eqn:E2; [rewrite I3 in CV by congruence; discriminate CV|]. destruct p; reflexivity.
    + inversion F as [|? ? (GG & FO) F']; subst. cbn [fst snd] in *. cbn [flat_map]. unfold block_lines at 1. cbn [fst snd].
      rewrite <- !app_assoc. rewrite read_field; [|exact GG|exact FO|apply not_indented_next; assumption]. cbn [bind].
      change (map snd ((g, f) :: bs)) with (f :: map snd bs) in *.
      rewrite <- merge_step by assumption.
      apply once_tail in O1 as (O1 & N1). apply once_tail in O2 as (O2 & N2). apply once_tail in O3 as (O3 & N3).
      rewrite !the_cons in *.
      apply IH; try assumption; [cbn [length] in L; lia| | |].
      * intros H. unfold take_field, is_one_of. cbn [existsb]. rewrite orb_false_r. change (teqb (key_of f) (T "author") || teqb (key_of f) (T "authors")) with (author_field f).
        change (teqb (key_of f) (T "title")) with (title_fld f). change (teqb (key_of f) (T "journal-ref")) with (venue_fld f).
        destruct (title_fld f) eqn:ET; [specialize (N1 eq_refl); congruence|].
        destruct (author_field f); [|destruct (venue_fld f)]; cbn [p_title]; apply I1, H.
      * intros H. unfold take_field, is_one_of. cbn [existsb]. rewrite orb_false_r. change (teqb (key_of f) (T "author") || teqb (key_of f) (T "authors")) with (author_field f).
        change (teqb (key_of f) (T "title")) with (title_fld f). change (teqb (key_of f) (T "journal-ref")) with (venue_fld f).
        destruct (author_field f) eqn:ET; [specialize (N2 eq_refl); congruence|].
        destruct (title_fld f); [|destruct (venue_fld f)]; cbn [p_authors]; apply I2, H.
      * intros H. unfold take_field, is_one_of. cbn [existsb]. rewrite orb_false_r. change (teqb (key_of f) (T "author") || teqb (key_of f) (T "authors")) with (author_field f).
        change (teqb (key_of f) (T "title")) with (title_fld f). change (teqb (key_of f) (T "journal-ref")) with (venue_fld f).
        destruct (venue_fld f) eqn:ET; [specialize (N3 eq_refl); congruence|].
        destruct (author_field f); [|destruct (title_fld f)]; cbn [p_venue]; apply I3, H.
Qed.

(** The metadata read are the title, the authors and the first word of the
    journal reference, in whatever order and among whatever other fields; a record
    without title or authors is refused. *)
Theorem C216_fields : forall to_int fname id y l0 l1 bs stop,
  to_int (firstn (length fname - 4) fname) = Ok id -> to_int (firstn 2 fname) = Ok y -> (0 < id)%Z -> (0 <= y < 100)%Z ->
  Forall block_ok bs -> ending stop ->
  once title_fld (map snd bs) -> once author_field (map snd bs) -> once venue_fld (map snd bs) ->
  let year := (if Z_le_dec 90 y then 1900 + y else 2000 + y)%Z in
  let p := expected id year (map snd bs) in
  read_paper_metadata to_int fname (l0 :: l1 :: flat_map block_lines bs ++ stop) =
  match p_title p, p_authors p with
  | Some _, _ :: _ => Ok p
  | _, _ => Raise ValueError
  end.
Proof.
  intros to_int fname id y l0 l1 bs stop E1 E2 PI PY F ES O1 O2 O3 year p. unfold read_paper_metadata. rewrite E1, E2. cbn [bind skipn].
  assert (Y : (if (90 <=? y)%Z then y + 1900 else y + 2000)%Z = year) by (unfold year; destruct (Z_le_dec 90 y); destruct (90 <=? y)%Z eqn:Q; lia).
  rewrite Y. rewrite read_fields_spec; try assumption; try (intros _; reflexivity).
  2: { rewrite app_length. assert (length bs <= length (flat_map block_lines bs)); [|lia].
       clear. induction bs as [|(g, f) bs IH]; [reflexivity|]. cbn [flat_map length]. rewrite app_length. unfold block_lines at 1. cbn [fst snd].
       rewrite app_length. cbn [field_lines length]. lia. }
  cbn [bind]. assert (MP : merge (mkPaper id None [] None year) (map snd bs) = p).
  { unfold p, merge, expected. cbn [arxiv_id p_title p_authors p_venue p_year]. destruct (the title_fld (map snd bs)); reflexivity. }
  rewrite MP.
  assert (PYR : (0 < year)%Z) by (unfold year; destruct (Z_le_dec 90 y); lia).
  unfold complete_except_for_venue. assert (EI : arxiv_id p = id) by reflexivity. assert (EY : p_year p = year) by reflexivity. rewrite EI, EY.
  replace (0 <? id)%Z with true by (symmetry; apply Z.ltb_lt, PI). replace (0 <? year)%Z with true by (symmetry; apply Z.ltb_lt, PYR).
  destruct (p_title p); [|reflexivity]. destruct (p_authors p); reflexivity.
Qed.

(** A directory: the records of the abstracts that can be read, in order. *)
Definition abstract (f : text * list text) : Prop := exists stem, fst f = stem ++ T ".abs".
Lemma abs_suffix name : teqb (skipn (length name - 4) name) (T ".abs") = true <-> exists stem, name = stem ++ T ".abs".
Proof.
  split.
  - intros H. apply teqb_eq in H. exists (firstn (length name - 4) name). rewrite <- H. symmetry. apply firstn_skipn.
  - intros (stem & ->). rewrite app_length. change (length (T ".abs")) with 4. rewrite Nat.add_sub, skip_prefix. reflexivity.
Qed.
Theorem C216_directory : forall to_int fmt files,
  (forall f, In f files -> abstract f -> (exists p, read_paper_metadata to_int (fst f) (snd f) = Ok p) \/ read_paper_metadata to_int (fst f) (snd f) = Raise ValueError) ->
  exists ps, convert_files to_int fmt files = Ok (concat (map (write_paper_metadata fmt) ps)) /\
    (forall p, In p ps <-> exists f, In f files /\ abstract f /\ read_paper_metadata to_int (fst f) (snd f) = Ok p).
Proof.
  intros to_int fmt. induction files as [|(name, lines) files IH]; intros H.
  - exists []. split; [reflexivity|]. intros p. split; [intros []|intros (f & [] & _)].
  - destruct IH as (ps & E & M); [intros f I; apply H; right; exact I|]. cbn [convert_files].
    destruct (teqb (skipn (length name - 4) name) (T ".abs")) eqn:A.
    + apply abs_suffix in A. destruct (H (name, lines) (or_introl eq_refl) A) as [(p & R)|R]; cbn [fst snd] in R; rewrite R.
      * rewrite E. cbn [bind]. exists (p :: ps). split; [reflexivity|]. intros q. split.
        { intros [<-|I]; [exists (name, lines); repeat split; [left; reflexivity|exact A|exact R]|].
          apply M in I as (f & I & X). exists f. split; [right; exact I|exact X]. }
        { intros (f & [<-|I] & AF & RF); [left; cbn [fst snd] in RF; congruence|right; apply M; eauto]. }
      * exists ps. split; [exact E|]. intros q. rewrite M. split; intros (f & I & AF & RF).
        { exists f. split; [right; exact I|auto]. }
        { destruct I as [<-|I]; [cbn [fst snd] in RF; congruence|eauto]. }
    + exists ps. split; [exact E|]. intros q. rewrite M. split; intros (f & I & AF & RF).
      * exists f. split; [right; exact I|auto].
      * destruct I as [<-|I]; [|eauto]. apply abs_suffix in AF. cbn [fst] in AF. congruence.
Qed.
(** One line without a colon ends the whole conversion: IndexError is not caught. *)
Theorem C216_bad_line_refuted : forall to_int fmt files, to_int (T "0001001") = Ok 1001%Z -> to_int (T "00") = Ok 0%Z ->
  convert_files to_int fmt ((T "0001001.abs", [T "-----"; T "Paper"; T "no colon here"]) :: files) = Raise IndexError.
Proof.
  intros to_int fmt files E1 E2. cbn [convert_files].
  change (teqb (skipn (length (T "0001001.abs") - 4) (T "0001001.abs")) (T ".abs")) with true. cbv iota. unfold read_paper_metadata.
  change (firstn (length (T "0001001.abs") - 4) (T "0001001.abs")) with (T "0001001"). change (firstn 2 (T "0001001.abs")) with (T "00").
  rewrite E1, E2. reflexivity.
Qed.
Definition demo_int (t : text) : res Z := if teqb t (T "9201001") then Ok 9201001%Z else if teqb t (T "92") then Ok 92%Z else Raise ValueError.
Definition demo_blocks : list block :=
  [([], mkField (T "Title") (T " Strings and") [T "  branes" ++ nl]); ([nl], mkField (T "Comments") (T " 12 pages") []);
   ([], mkField (T "Authors") (T " A. Smith (MIT), B. Jones and C. Brown") []); ([], mkField (T "Journal-ref") (T " Phys.Rev. D45") [])].
Example C216_case : Forall block_ok demo_blocks /\ ending [T "\\" ++ nl; T "  The abstract" ++ nl] /\
  once title_fld (map snd demo_blocks) /\ once author_field (map snd demo_blocks) /\ once venue_fld (map snd demo_blocks) /\
  read_paper_metadata demo_int (T "9201001.abs") (T "--" :: T "Paper" :: flat_map block_lines demo_blocks ++ [T "\\" ++ nl; T "  The abstract" ++ nl]) =
  Ok (mkPaper 9201001 (Some (T "Strings and branes")) [T "A. Smith"; T "B. Jones"; T "C. Brown"] (Some (T "Phys.Rev.")) 1992).
Proof.
  assert (NI : forall l, continues l = false -> ~ indented l) by (intros l H C; apply continues_iff in C; congruence).
  assert (NC : forall k, forallb (fun c => negb (Ascii.eqb c ":")) k = true -> ~ In ":"%char k).
  { intros k H I. rewrite forallb_forall in H. specialize (H _ I). discriminate H. }
  split; [|split; [|split; [|split; [|split]]]].
  - repeat apply Forall_cons; try apply Forall_nil; (split; [cbn [fst]; repeat apply Forall_cons; try apply Forall_nil|split; [|split]]);
      try (apply NC; reflexivity); try (apply NI; reflexivity); cbn [snd f_more]; repeat apply Forall_cons; try apply Forall_nil;
      try (apply continues_iff; reflexivity).
    split; [left; reflexivity|apply NI; reflexivity].
  - exists []. split; [constructor|right]. exists (T "\\" ++ nl), [T "  The abstract" ++ nl]. repeat split. apply NI. reflexivity.
  - unfold once. vm_compute. lia.
  - unfold once. vm_compute. lia.
  - unfold once. vm_compute. lia.
  - vm_compute. reflexivity.
Qed.

(** ** C217: the list of authors *)
Definition spaces (s : text) : Prop := forallb is_space s = true.
(** What may stand between two names: a comma, or the word "and". *)
Definition separator (s : text) : Prop :=
  (exists a b, s = a ++ T "," ++ b /\ spaces a /\ spaces b) \/
  (exists a b, s = a ++ T "and" ++ b /\ spaces a /\ spaces b /\ a <> [] /\ b <> []).
(** A name: trimmed, not empty, without commas, opening brackets and the word "and"
    after a blank. *)
Definition name_ok (a : text) : Prop :=
  (exists c t, a = c :: t /\ is_space c = false) /\ (exists t d, a = t ++ [d] /\ is_space d = false) /\
  ~ In ","%char a /\ ~ In "("%char a /\
  (forall x ws y, a = x ++ ws ++ T "and" ++ y -> spaces ws -> ws <> [] -> exists c y', y = c :: y' /\ is_space c = false).
Definition authors_text (a : text) (l : list (text * text)) : text := a ++ flat_map (fun '(s, b) => s ++ b) l.

Lemma spaces_app_head ws c t ws' c' t' : spaces ws -> spaces ws' -> is_space c = false -> is_space c' = false ->
  ws ++ c :: t = ws' ++ c' :: t' -> ws = ws' /\ c = c' /\ t = t'.
Proof.
  revert ws'. induction ws as [|w ws IH]; intros ws' S S' C C' E; destruct ws' as [|w' ws'].
  - injection E as -> ->. auto.
  - injection E as -> _. unfold spaces in S'. cbn [forallb] in S'. rewrite C in S'. discriminate.
  - injection E as -> _. unfold spaces in S. cbn [forallb] in S. rewrite C' in S. discriminate.
  - unfold spaces in *. cbn [forallb] in *. apply andb_prop in S as (_ & S). apply andb_prop in S' as (_ & S').
    injection E as -> E. destruct (IH ws' S S' C C' E) as (-> & -> & ->). auto.
Qed.
Lemma delimiter_inside a x t rest : name_ok a -> a = x ++ t -> t <> [] ->
  (forall c r, rest = c :: r -> is_space c = true \/ c = ","%char) -> delimiter (t ++ rest) = None.
Proof.
  intros (_ & (u & d & ED & DS) & NC & _ & AND) E N R.
  destruct (span_spec t) as (ws & r & _ & ET & SP & RR).
  assert (RN : exists c r', r = c :: r' /\ is_space c = false).
  { destruct RR as [->|H]; [|exact H]. exfalso. rewrite app_nil_r in ET. subst ws. rewrite E in ED.
    assert (In d t).
    { destruct t as [|e t] using rev_ind; [congruence|]. rewrite app_assoc in ED. apply app_inj_tail in ED as (_ & ->). apply in_or_app. right. left. reflexivity. }
    rewrite forallb_forall in SP. rewrite (SP d H) in DS. discriminate. }
  destruct RN as (c & r' & -> & CS). unfold delimiter.
  assert (SPAN : span_spaces (t ++ rest) = (ws, c :: r' ++ rest)).
  { rewrite ET, <- app_assoc. cbn [app]. apply span_app; [exact SP|right; eauto]. }
  rewrite SPAN. destruct (ascii_dec c ",") as [->|NE].
  { exfalso. apply NC. rewrite E, ET. apply in_or_app. right. apply in_or_app. right. left. reflexivity. }
  destruct ws as [|w ws]; [reflexivity|]. destruct (starts (T "and") (c :: r' ++ rest)) eqn:ST; [|reflexivity].
  apply starts_spec in ST as (y & EY).
  (* the word lies inside the name *)
  assert (Y : exists y', c :: r' = T "and" ++ y' /\ y = y' ++ rest).
  { assert (NR : forall c0 r0, rest = c0 :: r0 -> c0 <> "n"%char /\ c0 <> "d"%char).
    { intros c0 r0 E0. destruct (R c0 r0 E0) as [H| ->]; split; try discriminate; intros ->; discriminate H. }
    cbn in EY. injection EY as -> EY. destruct r' as [|c1 r'].
    { cbn [app] in EY. destruct rest as [|c0 r0]; [discriminate EY|]. injection EY as -> _. destruct (NR _ _ eq_refl) as (X & _). congruence. }
    injection EY as -> EY. destruct r' as [|c2 r'].
    { cbn [app] in EY. destruct rest as [|c0 r0]; [discriminate EY|]. injection EY as -> _. destruct (NR _ _ eq_refl) as (_ & X). congruence. }
    injection EY as -> EY. exists r'. split; [reflexivity|]. symmetry. exact EY. }
  destruct Y as (y' & EA & ->). rewrite app_comm_cons, EA, <- app_assoc. change 3 with (length (T "and")). rewrite skip_prefix.
  destruct (AND x (w :: ws) y') as (c' & y'' & -> & CS').
  { rewrite E, ET, EA. reflexivity. }
  { exact SP. }
  { discriminate. }
  cbn [app span_spaces]. rewrite CS'. reflexivity.
Qed.
Lemma delimiter_sep s b rest : separator s -> (exists c t, b = c :: t /\ is_space c = false) -> delimiter (s ++ b ++ rest) = Some (b ++ rest).
Proof.
  intros S (c & t & -> & CS).
  assert (HB : forall ws, spaces ws -> span_spaces (ws ++ (c :: t) ++ rest) = (ws, (c :: t) ++ rest)) by (intros ws W; apply span_app; [exact W|right; exists c, (t ++ rest); auto]).
  destruct S as [(a & b' & -> & A & B)|(a & b' & -> & A & B & NA & NB)]; unfold delimiter; rewrite <- !app_assoc.
  - rewrite (span_app a) by (exact A || (right; exists ","%char, (b' ++ (c :: t) ++ rest); split; reflexivity)).
    change (T "," ++ b' ++ (c :: t) ++ rest) with (","%char :: b' ++ (c :: t) ++ rest). destruct (ascii_dec "," ","); [|congruence]. rewrite HB by exact B. reflexivity.
  - rewrite (span_app a) by (exact A || (right; exists "a"%char, (T "nd" ++ b' ++ (c :: t) ++ rest); split; reflexivity)).
    change (T "and" ++ b' ++ (c :: t) ++ rest) with ("a"%char :: T "nd" ++ b' ++ (c :: t) ++ rest) at 1.
    destruct (ascii_dec "a" ","); [discriminate|]. destruct a as [|x a]; [congruence|]. rewrite starts_app. change 3 with (length (T "and")).
    rewrite skip_prefix, HB by exact B. destruct b'; [congruence|reflexivity].
Qed.
Lemma split_inside a rest n : name_ok a -> (forall c r, rest = c :: r -> is_space c = true \/ c = ","%char) ->
  forall t x, a = x ++ t -> split_names (length t + n) (t ++ rest) =
    match split_names n rest with [] => [t] | w :: ws => (t ++ w) :: ws end.
Proof.
  intros NO R. induction t as [|c t IH]; intros x E.
  - cbn [length plus app]. destruct (split_names n rest) as [|w ws] eqn:Q; [|reflexivity].
    destruct n; cbn [split_names] in Q; [discriminate|]. destruct (delimiter rest); [discriminate|]. destruct rest; [discriminate|]. destruct (split_names n rest); discriminate.
  - cbn [length plus]. cbn [split_names]. rewrite (delimiter_inside a x (c :: t) rest NO E ltac:(discriminate) R). cbn [app].
    rewrite (IH (x ++ [c])) by (rewrite <- app_assoc; exact E). destruct (split_names n rest); reflexivity.
Qed.
Lemma split_authors l : forall a fuel, name_ok a -> Forall (fun sb => separator (fst sb) /\ name_ok (snd sb)) l ->
  length (authors_text a l) < fuel -> split_names fuel (authors_text a l) = a :: map snd l.
Proof.
  induction l as [|(s, b) l IH]; intros a fuel NO F L.
  - unfold authors_text in *. cbn [flat_map] in *. rewrite app_nil_r in L. rewrite app_nil_r.
    assert (N : fuel = length a + S (fuel - length a - 1)) by lia. rewrite N. rewrite <- (app_nil_r a) at 3.
    rewrite (split_inside a [] _ NO ltac:(intros; discriminate) a [] eq_refl). cbn. rewrite app_nil_r. reflexivity.
  - inversion F as [|? ? (SP & NB) F']; subst. cbn [fst snd] in *. unfold authors_text in *. cbn [flat_map] in *. rewrite <- app_assoc in L |- *.
    rewrite !app_length in L.
    assert (SL : 1 <= length s).
    { destruct SP as [(x & y & -> & _)|(x & y & -> & _)]; rewrite !app_length; cbn [length T list_ascii_of_string]; lia. }
    assert (N : fuel = length a + S (fuel - length a - 1)) by lia. rewrite N.
    assert (R : forall c r, s ++ b ++ flat_map (fun '(s, b) => s ++ b) l = c :: r -> is_space c = true \/ c = ","%char).
    { intros c r E. destruct SP as [(x & y & -> & X & Y)|(x & y & -> & X & Y & NX & NY)].
      - destruct x as [|d x]; [right; injection E as <- _; reflexivity|left]. injection E as <- _. unfold spaces in X. cbn [forallb] in X. apply andb_prop in X as (X & _). exact X.
      - destruct x as [|d x]; [congruence|left]. injection E as <- _. unfold spaces in X. cbn [forallb] in X. apply andb_prop in X as (X & _). exact X. }
    rewrite (split_inside a _ _ NO R a [] eq_refl).
    cbn [split_names]. rewrite (delimiter_sep s b _ SP (proj1 NB)).
    rewrite (IH b) by (assumption || (unfold authors_text; rewrite app_length; lia)).
    cbn [map snd]. rewrite app_nil_r. reflexivity.
Qed.
Lemma name_strip_id a : name_ok a -> strip a = a.
Proof.
  intros ((c & t & -> & C) & (u & d & E & D) & _). destruct u as [|c' u].
  - rewrite E. destruct (C112_strip [] d [] d [] eq_refl eq_refl D D) as (_ & X & _). exact X.
  - rewrite E. injection E as <- _. apply strip_ends; assumption.
Qed.
(** Authors separated by commas or by "and" are read one by one. *)
Theorem C217_authors : forall a l, name_ok a -> Forall (fun sb => separator (fst sb) /\ name_ok (snd sb)) l ->
  read_authors (authors_text a l) = a :: map snd l.
Proof.
  intros a l NO F. unfold read_authors.
  assert (NP : ~ In "("%char (authors_text a l)).
  { unfold authors_text. intros H. apply in_app_or in H as [H|H]; [apply NO, H|]. apply in_flat_map in H as ((s, b) & I & H).
    rewrite Forall_forall in F. destruct (F _ I) as (SP & NB). cbn [fst snd] in *. apply in_app_or in H as [H|H]; [|apply NB, H].
    assert (G : forall x, spaces x -> ~ In "("%char x).
    { intros x S I'. unfold spaces in S. rewrite forallb_forall in S. specialize (S _ I'). discriminate S. }
    destruct SP as [(x & y & -> & X & Y)|(x & y & -> & X & Y & _)]; apply in_app_or in H as [H|H]; try (exact (G _ X H));
      apply in_app_or in H as [H|H]; try (exact (G _ Y H)); cbn in H; intuition discriminate. }
  unfold eliminate_parentheses. rewrite no_open_id by exact NP. rewrite split_authors by (assumption || lia).
  assert (AL : Forall name_ok (a :: map snd l)).
  { constructor; [exact NO|]. rewrite Forall_forall in *. intros b Hb. apply in_map_iff in Hb as ((s, b') & <- & I). apply (F _ I). }
  revert AL. generalize (a :: map snd l). clear. induction l as [|b l IH]; intros F; [reflexivity|]. inversion F as [|? ? N F']; subst.
  cbn [filter]. rewrite (name_strip_id b N). assert (B : (0 <? length b) = true).
  { destruct N as ((c & t & -> & _) & _). reflexivity. }
  rewrite B. cbn [map]. rewrite (name_strip_id b N), (IH F'). reflexivity.
Qed.
(** After a comma, "and" becomes part of the name. *)
Theorem C217_comma_and_refuted : read_authors (T "A. Smith, B. Jones, and C. Brown") = [T "A. Smith"; T "B. Jones"; T "and C. Brown"].
Proof. reflexivity. Qed.
Example C217_case : name_ok (T "A. Smith") /\ separator (T ", ") /\ separator (T " and ") /\ name_ok (T "Sandy Anderson") /\
  read_authors (T "A. Smith, Sandy Anderson and C. Brown") = [T "A. Smith"; T "Sandy Anderson"; T "C. Brown"].
Proof.
  assert (NC : forall ch k, forallb (fun c => negb (Ascii.eqb c ch)) k = true -> ~ In ch k).
  { intros ch k H I. rewrite forallb_forall in H. specialize (H _ I). rewrite Ascii.eqb_refl in H. discriminate H. }
  (* the places where the word could stand *)
  assert (AND : forall a, forallb (fun n => match span_spaces (skipn n a) with (_ :: _, r) => negb (starts (T "and") r) | _ => true end) (seq 0 (length a)) = true ->
    forall x ws y, a = x ++ ws ++ T "and" ++ y -> spaces ws -> ws <> [] -> exists c y', y = c :: y' /\ is_space c = false).
  { intros a H x ws y -> S N. exfalso. rewrite forallb_forall in H. specialize (H (length x)).
    rewrite skip_prefix in H. rewrite (span_app ws) in H by (exact S || (right; exists "a"%char, (T "nd" ++ y); split; reflexivity)).
    destruct ws as [|w ws]; [congruence|]. rewrite starts_app in H. discriminate H. apply in_seq. rewrite app_length. cbn [length app]. lia. }
  split; [|split; [|split; [|split]]].
  - repeat split; try (apply NC; reflexivity); [exists "A"%char, (T ". Smith"); auto|exists (T "A. Smit"), "h"%char; auto|apply AND; reflexivity].
  - left. exists [], (T " "). repeat split.
  - right. exists (T " "), (T " "). repeat split; discriminate.
  - repeat split; try (apply NC; reflexivity); [exists "S"%char, (T "andy Anderson"); auto|exists (T "Sandy Anderso"), "n"%char; auto|apply AND; reflexivity].
  - reflexivity.
Qed.

(** ** C218: names in the style of the ACL *)
(** Nothing of a name is lost: only blanks, commas and full stops change. *)
Theorem C218_letters : forall s, Permutation (letters (bibtex_to_acl_author s)) (letters s).
Proof. exact author_letters. Qed.
Definition suffix (w : text) : bool := is_one_of (py_lower w) suffixes.
Definition particle (w : text) : bool := is_one_of (py_lower w) particles.
Definition full (ws : list text) : text := join_with (T " ") ws.
Lemma acl_words ws : ws <> [] -> Forall word ws -> split_on " "%char (strip (full ws)) = ws.
Proof. intros N F. unfold full. rewrite strip_join by exact F. apply split_words; assumption. Qed.
Lemma acl_long last prev before b : word last -> word prev -> word b -> Forall word before ->
  bibtex_to_acl_author (full (rev before ++ [b; prev; last])) = long_name last prev (b :: before).
Proof.
  intros WL WP WB FB. unfold bibtex_to_acl_author. rewrite acl_words.
  2: { destruct (rev before); discriminate. }
  2: { apply Forall_app. split; [apply Forall_rev, FB|repeat (constructor; try assumption)]. }
  destruct (rev before ++ [b; prev; last]) as [|x1 [|x2 [|x3 l]]] eqn:E.
  - destruct (rev before); discriminate E.
  - assert (L := f_equal (@length _) E). rewrite app_length in L. cbn [length] in L. lia.
  - assert (L := f_equal (@length _) E). rewrite app_length in L. cbn [length] in L. lia.
  - rewrite <- E, rev_app_distr. cbn [rev app]. rewrite rev_involutive. reflexivity.
Qed.
(** The surname goes first, and the given names keep their order. *)
Theorem C218_plain : forall given g last, Forall word given -> word g -> word last ->
  suffix last = false -> (given <> [] -> particle g = false) ->
  bibtex_to_acl_author (full (given ++ [g; last])) = last ++ T ", " ++ full (given ++ [g]).
Proof.
  intros given g last FG WG WL S P. destruct given as [|b before] using rev_ind.
  - unfold bibtex_to_acl_author. cbn [app]. rewrite acl_words by (discriminate || (repeat (constructor; try assumption))). reflexivity.
  - clear IHbefore. apply Forall_app in FG as (FB & WB). apply Forall_inv in WB.
    replace ((before ++ [b]) ++ [g; last]) with (rev (rev before) ++ [b; g; last]) by (rewrite rev_involutive, <- app_assoc; reflexivity).
    rewrite acl_long by (try assumption; apply Forall_rev, FB). unfold long_name. fold (suffix last). rewrite S. fold (particle g).
    rewrite P by (destruct before; discriminate). cbn [rev]. rewrite rev_involutive. reflexivity.
Qed.
(** A particle goes with the surname. *)
Theorem C218_particle : forall given g p last, Forall word given -> word g -> word p -> word last ->
  suffix last = false -> particle p = true ->
  bibtex_to_acl_author (full (given ++ [g; p; last])) = p ++ T " " ++ last ++ T ", " ++ full (given ++ [g]).
Proof.
  intros given g p last FG WG WP WL S P.
  replace (given ++ [g; p; last]) with (rev (rev given) ++ [g; p; last]) by (rewrite rev_involutive; reflexivity).
  rewrite acl_long by (try assumption; apply Forall_rev, FG). unfold long_name. fold (suffix last). rewrite S. fold (particle p). rewrite P.
  cbn [rev]. rewrite rev_involutive. reflexivity.
Qed.
(** So does a suffix. *)
Theorem C218_suffix : forall given g last s, Forall word given -> word g -> word last -> word s ->
  suffix s = true -> (given <> [] -> particle g = false) ->
  bibtex_to_acl_author (full (given ++ [g; last; s])) = last ++ T " " ++ s ++ T ", " ++ full (given ++ [g]).
Proof.
  intros given g last s FG WG WL WS S P.
  replace (given ++ [g; last; s]) with (rev (rev given) ++ [g; last; s]) by (rewrite rev_involutive; reflexivity).
  rewrite acl_long by (try assumption; apply Forall_rev, FG). unfold long_name. fold (suffix s). rewrite S.
  destruct (rev given) as [|b before] eqn:E.
  - assert (G : given = []) by (rewrite <- (rev_involutive given), E; reflexivity). subst given. cbn [rev app]. rewrite <- !app_assoc. reflexivity.
  - fold (particle g). rewrite P by (intros ->; discriminate E). change (rev (g :: b :: before)) with (rev (b :: before) ++ [g]). rewrite <- E, rev_involutive.
    rewrite <- !app_assoc. reflexivity.
Qed.
(** Initials run together are taken apart. *)
Lemma split_dots l : forall w, Forall (fun w => ~ In "."%char w) (w :: l) -> split_on "."%char (join_with (T ".") (w :: l)) = w :: l.
Proof.
  induction l as [|v l IH]; intros w F; inversion F as [|? ? N F']; subst.
  - cbn [join_with]. apply split_plain, N.
  - change (join_with (T ".") (w :: v :: l)) with (w ++ "."%char :: join_with (T ".") (v :: l)). rewrite split_sep by exact N. rewrite IH by exact F'. reflexivity.
Qed.
Theorem C218_initials : forall i initials last,
  Forall (fun w => word w /\ ~ In "."%char w) (last :: i :: initials) ->
  bibtex_to_acl_author (join_with (T ".") (i :: initials ++ [last])) = last ++ T ", " ++ join_with (T ". ") (i :: initials) ++ T ".".
Proof.
  intros i initials last F.
  assert (F' : Forall (fun w => word w /\ ~ In "."%char w) (i :: initials ++ [last])).
  { inversion F as [|? ? A B]; subst. inversion B as [|? ? C D]; subst. constructor; [exact C|]. apply Forall_app. split; [exact D|]. constructor; [exact A|constructor]. }
  assert (W : word (join_with (T ".") (i :: initials ++ [last]))).
  { revert F'. generalize (initials ++ [last]). clear. intros l. revert i. induction l as [|v l IH]; intros i F; inversion F as [|? ? (W & _) F']; subst.
    - exact W.
    - change (join_with (T ".") (i :: v :: l)) with (i ++ "."%char :: join_with (T ".") (v :: l)). destruct (IH v F') as (_ & G). destruct W as (N & W). split; [destruct i; discriminate|].
      apply Forall_app. split; [exact W|]. constructor; [reflexivity|exact G]. }
  unfold bibtex_to_acl_author. rewrite (strip_word _ W). rewrite (split_plain _ _ (word_no_space _ W)).
  rewrite split_dots by (eapply Forall_impl; [|exact F']; intros a (_ & H); exact H).
  change (i :: initials ++ [last]) with ((i :: initials) ++ [last]). rewrite rev_app_distr. cbn [rev app].
  destruct (rev initials ++ [i]) as [|x l] eqn:E; [destruct (rev initials); discriminate E|]. rewrite <- E, rev_app_distr. cbn [rev app]. rewrite rev_involutive. reflexivity.
Qed.
(** With two words a particle is not looked for, and a final full stop loses the
    surname. *)
Theorem C218_short_names_refuted : bibtex_to_acl_author (T "de Rham") = T "Rham, de" /\ bibtex_to_acl_author (T "Plato.") = T ", Plato.".
Proof. split; reflexivity. Qed.
Example C218_case : Forall word [T "Bart"; T "L."; T "van"; T "der"; T "Waerden"; T "Jr."] /\ suffix (T "Jr.") = true /\ particle (T "Van") = true /\
  suffix (T "Waerden") = false /\ bibtex_to_acl_author (T "Bart L. Smith Jr.") = T "Smith Jr., Bart L." /\
  bibtex_to_acl_author (T "Ludwig Van Beethoven") = T "Van Beethoven, Ludwig" /\ bibtex_to_acl_author (T "J.S.Bach") = T "Bach, J. S.".
Proof.
  split; [|repeat split]. assert (W : forall w, w <> [] -> forallb (fun c => negb (is_space c)) w = true -> word w).
  { intros w N H. split; [exact N|]. rewrite Forall_forall. rewrite forallb_forall in H. intros c Hc. specialize (H c Hc). destruct (is_space c); [discriminate H|reflexivity]. }
  repeat apply Forall_cons; try apply Forall_nil; apply W; (discriminate || reflexivity).
Qed.

(** ** C219: the numbers of authors *)
Lemma strip_before pre s : forallb is_space pre = true -> strip (pre ++ s) = strip s.
Proof. intros H. unfold strip. rewrite lstrip_spaces by exact H. reflexivity. Qed.
Lemma split_pre c pre t : is_space c = false -> forallb is_space pre = true ->
  exists w ws, split_on c t = w :: ws /\ split_on c (pre ++ t) = (pre ++ w) :: ws.
Proof.
  intros C. induction pre as [|x pre IH]; intros H.
  - destruct (split_nonempty c t) as (w & ws & E). exists w, ws. auto.
  - cbn [forallb] in H. apply andb_prop in H as (X & H). destruct (IH H) as (w & ws & E & E'). exists w, ws. split; [exact E|].
    cbn [app split_on]. destruct (ascii_dec x c); [congruence|]. rewrite E'. reflexivity.
Qed.
Lemma split_post c post t : is_space c = false -> forallb is_space post = true ->
  exists l w, split_on c t = l ++ [w] /\ split_on c (t ++ post) = l ++ [w ++ post].
Proof.
  intros C H. induction t as [|x t (l & w & E & E')].
  - exists [], []. split; [reflexivity|]. cbn [app]. apply split_plain. intros I. rewrite forallb_forall in H. rewrite (H c I) in C. discriminate C.
  - cbn [app split_on]. destruct (ascii_dec x c).
    + rewrite E, E'. exists ([] :: l), w. auto.
    + rewrite E, E'. destruct l as [|v l]; cbn [app]; [exists [], (x :: w); auto|exists ((x :: v) :: l), w; auto].
Qed.
Lemma split_strip c s : is_space c = false -> map strip (split_on c (strip s)) = map strip (split_on c s).
Proof.
  intros C. destruct (strip_parts s) as (pre & post & E & A & B). rewrite E at 2.
  destruct (split_pre c pre (strip s ++ post) C A) as (w & ws & E1 & E2). rewrite E2. cbn [map].
  rewrite (strip_before pre w A). change (strip w :: map strip ws) with (map strip (w :: ws)). rewrite <- E1.
  destruct (split_post c post (strip s) C B) as (l & v & E3 & E4). rewrite E3, E4. rewrite !map_app. cbn [map]. rewrite rstrip_spaces_end by exact B. reflexivity.
Qed.
Lemma split_joined ms : forall m, Forall (fun w => ~ In ";"%char w) (m :: ms) -> map strip (split_on ";"%char (join_with (T "; ") (m :: ms))) = map strip (m :: ms).
Proof.
  induction ms as [|v ms IH]; intros m F; inversion F as [|? ? N F']; subst.
  - cbn [join_with]. rewrite split_plain by exact N. reflexivity.
  - change (join_with (T "; ") (m :: v :: ms)) with (m ++ ";"%char :: T " " ++ join_with (T "; ") (v :: ms)). rewrite split_sep by exact N.
    destruct (split_pre ";"%char (T " ") (join_with (T "; ") (v :: ms)) eq_refl eq_refl) as (w & ws & E1 & E2). rewrite E2. cbn [map].
    rewrite (strip_before (T " ") w eq_refl). change (strip w :: map strip ws) with (map strip (w :: ws)). rewrite <- E1, IH by exact F'. reflexivity.
Qed.
Lemma braces_join ns : strip_braces (join_with (T "; ") ns) = join_with (T "; ") (map strip_braces ns).
Proof.
  induction ns as [|n ns IH]; [reflexivity|]. destruct ns as [|m ns]; [reflexivity|].
  change (join_with (T "; ") (n :: m :: ns)) with (n ++ T "; " ++ join_with (T "; ") (m :: ns)). unfold strip_braces at 1. rewrite !map_app. fold (strip_braces (join_with (T "; ") (m :: ns))). rewrite IH. reflexivity.
Qed.
Lemma braces_none s : ~ In "{"%char (strip_braces s) /\ ~ In "}"%char (strip_braces s).
Proof. unfold strip_braces. split; intros H; apply in_map_iff in H as (c & E & _); destruct (ascii_dec c "{"); [discriminate E| |discriminate E|]; destruct (ascii_dec c "}"); congruence. Qed.
Lemma semi_kept a : ~ In ";"%char a -> ~ In ";"%char (strip_braces (bibtex_to_acl_author a)).
Proof.
  intros N H. unfold strip_braces in H. apply in_map_iff in H as (c & E & I). assert (c = ";"%char).
  { destruct (ascii_dec c "{"); [discriminate E|]. destruct (ascii_dec c "}"); [discriminate E|exact E]. }
  subst c. apply N. assert (L : In ";"%char (letters (bibtex_to_acl_author a))) by (apply filter_In; split; [exact I|reflexivity]).
  apply (Permutation_in _ (author_letters a)) in L. apply filter_In in L. apply L.
Qed.
(** The name under which an author is listed. *)
Definition listed (a : text) : text := strip (strip_braces (bibtex_to_acl_author a)).
Lemma author_line_names p : p_authors p <> [] -> Forall (fun a => ~ In ";"%char a) (p_authors p) ->
  names_of_line (field_line "author" (author_value p)) = Ok (map listed (p_authors p)).
Proof.
  intros N F. unfold names_of_line, field_line. change (teqb (firstn 6 (T "author" ++ T "={" ++ author_value p ++ T "}" ++ [ascii_of_nat 10])) (T "author")) with true. cbv iota.
  set (v := author_value p). destruct (braces_none (join_with (T "; ") (map bibtex_to_acl_author (p_authors p)))) as (B1 & B2). fold (author_value p) in B1, B2. fold v in B1, B2.
  assert (S1 : split_on "{"%char (T "author" ++ T "={" ++ v ++ T "}" ++ [ascii_of_nat 10]) = [T "author="; v ++ T "}" ++ [ascii_of_nat 10]]).
  { change (T "author" ++ T "={" ++ v ++ T "}" ++ [ascii_of_nat 10]) with (T "author=" ++ "{"%char :: (v ++ T "}" ++ [ascii_of_nat 10])).
    rewrite split_sep by (cbn; intuition discriminate). rewrite split_plain; [reflexivity|]. intros I. apply in_app_or in I as [I|I]; [exact (B1 I)|]. cbn in I. intuition discriminate. }
  rewrite S1. cbn [get_ nth_error bind].
  assert (S2 : split_on "}"%char (v ++ T "}" ++ [ascii_of_nat 10]) = [v; [ascii_of_nat 10]]).
  { change (v ++ T "}" ++ [ascii_of_nat 10]) with (v ++ "}"%char :: [ascii_of_nat 10]). rewrite split_sep by exact B2. reflexivity. }
  rewrite S2. cbn [get_ nth_error bind]. f_equal. rewrite split_strip by reflexivity. unfold v, author_value. rewrite braces_join, map_map.
  destruct (p_authors p) as [|a l]; [congruence|]. cbn [map]. rewrite split_joined.
  - cbn [map]. rewrite map_map. reflexivity.
  - change (Forall (fun w => ~ In ";"%char w) (map (fun x => strip_braces (bibtex_to_acl_author x)) (a :: l))). rewrite Forall_forall. intros w Hw. apply in_map_iff in Hw as (b & <- & I).
    rewrite Forall_forall in F. apply semi_kept, F, I.
Qed.
Lemma paper_names fmt p : p_authors p <> [] -> Forall (fun a => ~ In ";"%char a) (p_authors p) ->
  exists ls, mapM names_of_line (write_paper_metadata fmt p) = Ok ls /\ concat ls = map listed (p_authors p).
Proof.
  intros N F. unfold write_paper_metadata. cbn [app]. 
  assert (O : forall k v, teqb (firstn 6 (field_line k v)) (T "author") = false -> names_of_line (field_line k v) = Ok []) by (intros k v H; unfold names_of_line; rewrite H; reflexivity).
  cbn [mapM]. rewrite (O "id"%string) by reflexivity. cbn [bind]. rewrite (O "title"%string) by reflexivity. cbn [bind]. rewrite author_line_names by assumption. cbn [bind].
  destruct (p_venue p); cbn [app mapM].
  - rewrite (O "venue"%string) by reflexivity. cbn [bind]. rewrite (O "year"%string) by reflexivity. cbn [bind].
    change (names_of_line [ascii_of_nat 10]) with (@Ok (list text) []). cbn [bind]. eexists. split; [reflexivity|]. cbn [concat app]. rewrite !app_nil_r. reflexivity.
  - rewrite (O "year"%string) by reflexivity. cbn [bind].
    change (names_of_line [ascii_of_nat 10]) with (@Ok (list text) []). cbn [bind]. eexists. split; [reflexivity|]. cbn [concat app]. rewrite !app_nil_r. reflexivity.
Qed.
Lemma mapM_app_ok {A B} (f : A -> res B) l1 l2 r1 r2 : mapM f l1 = Ok r1 -> mapM f l2 = Ok r2 -> mapM f (l1 ++ l2) = Ok (r1 ++ r2).
Proof.
  revert r1. induction l1 as [|a l1 IH]; intros r1 H1 H2; cbn [mapM app] in *; [injection H1 as <-; exact H2|].
  destruct (f a); [|discriminate H1]. cbn [bind] in *. destruct (mapM f l1); [|discriminate H1]. cbn [bind] in *. injection H1 as <-. rewrite (IH _ eq_refl H2). reflexivity.
Qed.
(** The order of strings: one begins with the other, or at the first difference
    its character comes first. *)
Definition before (a b : text) : Prop :=
  exists p, (exists c r, a = p /\ b = p ++ c :: r) \/
    (exists c d r s, a = p ++ c :: r /\ b = p ++ d :: s /\ nat_of_ascii c < nat_of_ascii d).
Lemma tle_total a : forall b, tle a b = false -> before b a.
Proof.
  induction a as [|x a IH]; intros b H; [discriminate H|]. destruct b as [|y b]; [exists []; left; exists x, a; auto|]. cbn [tle] in H.
  apply orb_false_iff in H as (H1 & H2). apply Nat.ltb_ge in H1. destruct (nat_of_ascii x =? nat_of_ascii y) eqn:E.
  - apply Nat.eqb_eq in E. assert (x = y) by (rewrite <- (ascii_nat_embedding x), <- (ascii_nat_embedding y), E; reflexivity). subst y.
    destruct (IH b H2) as (p & [(c & r & -> & ->)|(c & d & r & s & -> & -> & L)]); exists (x :: p); [left; exists c, r|right; exists c, d, r, s]; auto.
  - apply Nat.eqb_neq in E. exists []. right. exists y, x, b, a. repeat split. lia.
Qed.
Lemma tle_before a : forall b, tle a b = true -> a <> b -> before a b.
Proof.
  induction a as [|x a IH]; intros b H N.
  - destruct b as [|y b]; [congruence|]. exists []. left. exists y, b. auto.
  - destruct b as [|y b]; [discriminate H|]. cbn [tle] in H. apply orb_prop in H as [H|H].
    + apply Nat.ltb_lt in H. exists []. right. exists x, y, a, b. auto.
    + apply andb_prop in H as (E & H). apply Nat.eqb_eq in E. assert (x = y) by (rewrite <- (ascii_nat_embedding x), <- (ascii_nat_embedding y), E; reflexivity). subst y.
      destruct (IH b H) as (p & [(c & r & -> & ->)|(c & d & r & s & -> & -> & L)]); [congruence| |]; exists (x :: p); [left; exists c, r|right; exists c, d, r, s]; auto.
Qed.
Lemma before_cons x a b : before a b -> before (x :: a) (x :: b).
Proof. intros (p & [(c & r & -> & ->)|(c & d & r & s & -> & -> & L)]); exists (x :: p); [left; exists c, r|right; exists c, d, r, s]; auto. Qed.
Lemma before_inv a b : before a b -> (a = [] /\ b <> []) \/ exists x y a' b', a = x :: a' /\ b = y :: b' /\ (nat_of_ascii x < nat_of_ascii y \/ (x = y /\ before a' b')).
Proof.
  intros (p & H). destruct p as [|x p]; destruct H as [(c & r & -> & ->)|(c & d & r & s & -> & -> & L)].
  - left. split; [reflexivity|discriminate].
  - right. exists c, d, r, s. auto.
  - right. exists x, x, p, (p ++ c :: r). repeat split. right. split; [reflexivity|]. exists p. left. exists c, r. auto.
  - right. exists x, x, (p ++ c :: r), (p ++ d :: s). repeat split. right. split; [reflexivity|]. exists p. right. exists c, d, r, s. auto.
Qed.
Lemma before_trans a : forall b c, before a b -> before b c -> before a c.
Proof.
  induction a as [|x a IH]; intros b c H1 H2.
  - apply before_inv in H2 as [(-> & _)|(y & z & b' & c' & -> & -> & _)].
    + apply before_inv in H1 as [(_ & N)|(? & ? & ? & ? & E & _)]; [congruence|discriminate E].
    + exists []. left. exists z, c'. auto.
  - apply before_inv in H1 as [(E & _)|(x' & y & a' & b' & E & -> & H1)]; [discriminate E|]. injection E as <- <-.
    apply before_inv in H2 as [(E & _)|(y' & z & b'' & c' & E & -> & H2)]; [discriminate E|]. injection E as <- <-.
    destruct H1 as [L1|(-> & B1)], H2 as [L2|(-> & B2)].
    + exists []. right. exists x, z, a, c'. repeat split. lia.
    + exists []. right. exists x, z, a, c'. auto.
    + exists []. right. exists y, z, a, c'. auto.
    + apply before_cons, (IH b' c'); assumption.
Qed.
Lemma before_irrefl a : ~ before a a.
Proof.
  induction a as [|x a IH]; intros H; apply before_inv in H as [(E & N)|(y & z & a' & b' & E & E' & H)]; try congruence.
  rewrite E in E'. injection E as <- <-. injection E' as <- <-. destruct H as [L|(_ & B)]; [lia|exact (IH B)].
Qed.
Lemma add_in a l b : In b (add_name a l) <-> b = a \/ In b l.
Proof.
  induction l as [|c l IH]; cbn [add_name]; [cbn; intuition congruence|]. destruct (teqb a c) eqn:E; [apply teqb_eq in E; subst c; cbn; intuition congruence|].
  destruct (tle a c); cbn [In]; [intuition congruence|]. rewrite IH. intuition congruence.
Qed.
Lemma add_sorted a l : StronglySorted before l -> StronglySorted before (add_name a l).
Proof.
  induction l as [|c l IH]; intros S; cbn [add_name]; [constructor; [constructor|constructor]|]. inversion S as [|? ? S' F]; subst.
  destruct (teqb a c) eqn:E; [exact S|]. assert (N : a <> c) by (intros ->; rewrite (proj2 (teqb_eq c c) eq_refl) in E; discriminate).
  destruct (tle a c) eqn:L.
  - assert (B := tle_before a c L N). constructor; [exact S|]. constructor; [exact B|]. rewrite Forall_forall in *. intros d Hd. apply (before_trans a c d B), F, Hd.
  - constructor; [apply IH, S'|]. rewrite Forall_forall in *. intros d Hd. apply add_in in Hd as [->|Hd]; [apply tle_total, L|apply F, Hd].
Qed.
Lemma sorted_nodup l : StronglySorted before l -> NoDup l.
Proof.
  induction 1 as [|a l S IH F]; constructor; [|exact IH]. intros I. rewrite Forall_forall in F. exact (before_irrefl a (F a I)).
Qed.
Lemma combine_fst {A B} (l : list A) (m : list B) : length l = length m -> map fst (combine l m) = l.
Proof. revert m. induction l as [|a l IH]; intros [|b m] H; try discriminate H; [reflexivity|]. cbn [combine map fst]. rewrite IH by (cbn in H; lia). reflexivity. Qed.
Lemma combine_snd {A B} (l : list A) (m : list B) : length l = length m -> map snd (combine l m) = m.
Proof. revert m. induction l as [|a l IH]; intros [|b m] H; try discriminate H; [reflexivity|]. cbn [combine map snd]. rewrite IH by (cbn in H; lia). reflexivity. Qed.
(** The file written by the conversion gives every author one number: 1, 2, ...,
    in the order of the names. *)
Theorem C219_authors : forall fmt ps,
  Forall (fun p => p_authors p <> [] /\ Forall (fun a => ~ In ";"%char a) (p_authors p)) ps ->
  exists l, author_ids (concat (map (write_paper_metadata fmt) ps)) = Ok l /\
    map fst l = seq 1 (length l) /\ NoDup (map snd l) /\ StronglySorted before (map snd l) /\
    (forall name, In name (map snd l) <-> exists p a, In p ps /\ In a (p_authors p) /\ name = listed a).
Proof.
  intros fmt ps F.
  assert (M : exists ls, mapM names_of_line (concat (map (write_paper_metadata fmt) ps)) = Ok ls /\ concat ls = flat_map (fun p => map listed (p_authors p)) ps).
  { induction F as [|p ps (N & S) F (ls & E & C)]; [exists []; auto|]. destruct (paper_names fmt p N S) as (l0 & E0 & C0). exists (l0 ++ ls).
    cbn [map concat flat_map]. split; [apply mapM_app_ok; assumption|]. rewrite concat_app, C0, C. reflexivity. }
  destruct M as (ls & E & C). unfold author_ids, author_list. rewrite E. cbn [bind]. set (al := fold_right add_name [] (concat ls)).
  exists (combine (seq 1 (length al)) al). split; [reflexivity|].
  assert (L : length (seq 1 (length al)) = length al) by apply seq_length.
  rewrite combine_fst, combine_snd by exact L. rewrite combine_length, L, Nat.min_id. split; [reflexivity|].
  assert (SS : StronglySorted before al).
  { unfold al. clear. induction (concat ls) as [|a l IH]; [constructor|]. cbn [fold_right]. apply add_sorted, IH. }
  split; [apply sorted_nodup, SS|]. split; [exact SS|].
  intros name. assert (IN : In name al <-> In name (concat ls)).
  { unfold al. clear. induction (concat ls) as [|a l IH]; [reflexivity|]. cbn [fold_right]. rewrite add_in, IH. cbn [In]. intuition congruence. }
  rewrite IN, C, in_flat_map. split.
  - intros (p & I & H). apply in_map_iff in H as (a & <- & A). eauto.
  - intros (p & a & I & A & ->). exists p. split; [exact I|]. apply in_map, A.
Qed.
(** A semicolon in a name, as in an HTML entity, makes two authors of one. *)
Theorem C219_semicolon_refuted : exists p, p_authors p = [T "K. G&ouml;del"] /\ forall fmt,
  author_ids (write_paper_metadata fmt p) = Ok [(1, T "G&ouml"); (2, T "del, K.")].
Proof.
  exists (mkPaper 9201001 (Some (T "On")) [T "K. G&ouml;del"] None 1992). split; [reflexivity|]. intros fmt. reflexivity.
Qed.
Example C219_case : exists ps, Forall (fun p => p_authors p <> [] /\ Forall (fun a => ~ In ";"%char a) (p_authors p)) ps /\ forall fmt,
  author_ids (concat (map (write_paper_metadata fmt) ps)) = Ok [(1, T "Jones, B."); (2, T "Smith, A."); (3, T "van Gogh, V.")].
Proof.
  exists [mkPaper 1 (Some (T "x")) [T "A. Smith"; T "V. van Gogh"] None 1992; mkPaper 2 (Some (T "y")) [T "B. Jones"; T "A. Smith"] (Some (T "J.")) 1993]. split.
  - assert (NC : forall k, forallb (fun c => negb (Ascii.eqb c ";")) k = true -> ~ In ";"%char k).
    { intros k H I. rewrite forallb_forall in H. specialize (H _ I). discriminate H. }
    repeat apply Forall_cons; try apply Forall_nil; (split; [discriminate|]); cbn [p_authors]; repeat apply Forall_cons; try apply Forall_nil; apply NC; reflexivity.
  - intros fmt. reflexivity.
Qed.

Print Assumptions C216_fields.
Print Assumptions C216_directory.
Print Assumptions C216_bad_line_refuted.
Print Assumptions C217_authors.
Print Assumptions C217_comma_and_refuted.
Print Assumptions C218_letters.
Print Assumptions C218_plain.
Print Assumptions C218_particle.
Print Assumptions C218_suffix.
Print Assumptions C218_initials.
Print Assumptions C218_short_names_refuted.
Print Assumptions C219_authors.
Print Assumptions C219_semicolon_refuted.
