(** * What is read from a file of results (C213, C214) and how it is written (C215) *)
From Coq Require Import Ascii String List ZArith QArith Arith Bool Lia.
From Verif Require Import Base EvalModel StrModel StrProps SelProps TableModel TableProps ReshapeModel ReshapeProofs.
Import ListNotations.
Open Scope nat_scope.
Open Scope list_scope.

(** ** The specification: what a file of results looks like *)
Section Spec.
  (** How the evaluation prints numbers, and how float() reads them, as in C113. *)
  Context (fmt_group : group -> list ascii) (fmt_count : nat -> list ascii) (fmt_val : Q -> list ascii)
          (heading rule : list ascii) (to_float : list ascii -> res Q) (rnd : Q -> Q).

  (** Blanks aside, the line begins with [p]; it is [p] followed by a number. *)
  Definition begins (p l : text) : Prop := exists t, strip l = p ++ t.
  Definition says (p : text) (v : Q) (l : text) : Prop := exists t, strip l = p ++ t /\ to_float t = Ok v.
  (** Other output: lines that begin with none of the given texts. *)
  Definition other (ps : list string) (ls : list text) : Prop := Forall (fun l => forall p, In p ps -> ~ begins (T p) l) ls.

  Definition perp_p := "Training perplexity is "%string.
  Definition mrr_p := "Mean reciprocal-rank: "%string.
  Definition map_p := "Mean average-precision: "%string.

  (** A printed table (C113), and what it says of a table read. *)
  Definition prints (title : string) (scores : dict (list Q)) (counts : dict nat) (lines : list text) : Prop :=
    map fst scores = eval_groups /\ (forall g v, lookup g scores = Some v -> length v = Ms) /\
    (forall g, In g eval_groups -> lookup g counts <> None) /\
    (forall a b, lookup (5, 10)%Z counts = Some a -> lookup (10, 1000)%Z counts = Some b -> a + b <> 0) /\
    print_table fmt_group fmt_count fmt_val heading rule (T title) scores counts = Ok lines.
  Definition table_says (scores : dict (list Q)) (counts : dict nat) (t : table) : Prop :=
    (forall r g, label r = Some g -> exists n v, lookup g counts = Some n /\ lookup g scores = Some v /\
        t r = mkE (inject_Z (Z.of_nat n)) (map rnd v)) /\
    (e_docs (t Range3_up) == docs_of t [Range3_5; Range5_10; Range10_up])%Q /\
    (e_docs (t Range5_up) == docs_of t [Range5_10; Range10_up])%Q /\
    (forall m, m < Ms ->
       (nth m (e_vals (t Range3_up)) 0 == weighted_of t [Range3_5; Range5_10; Range10_up] m / docs_of t [Range3_5; Range5_10; Range10_up])%Q /\
       (nth m (e_vals (t Range5_up)) 0 == weighted_of t [Range5_10; Range10_up] m / docs_of t [Range5_10; Range10_up])%Q).

  (** The figures of one run. *)
  Record figures := mkFig { g_perp : option Q; g_precs : dict (list Q); g_recs : dict (list Q); g_counts : dict nat;
                            g_mrr : Q; g_map : Q }.
  (** The lines up to the table of precisions: with or without a perplexity. *)
  Inductive opening : option Q -> list text -> Prop :=
  | With_perplexity : forall v n0 l n1, other [perp_p; "Precision"%string] n0 -> says (T perp_p) v l ->
      other ["Precision"; "Recall"]%string n1 -> opening (Some v) (n0 ++ l :: n1)
  | Without_perplexity : forall n0, other [perp_p; "Precision"%string] n0 -> opening None n0.
  (** The output of a run up to its mean reciprocal rank: the figures, in order,
      between other output. *)
  Definition run_head (f : figures) (head : list text) : Prop :=
    exists n1 p n2 q n3 lm,
      head = n1 ++ p ++ n2 ++ q ++ n3 ++ [lm] /\
      opening (g_perp f) n1 /\ prints "Precision" (g_precs f) (g_counts f) p /\
      other ["Recall"%string; mrr_p] n2 /\ prints "Recall" (g_recs f) (g_counts f) q /\
      other [mrr_p; map_p] n3 /\ says (T mrr_p) (g_mrr f) lm.
  (** Lines without the mean average precision, none of them blank. *)
  Definition no_map (ls : list text) : Prop := other [map_p] ls /\ Forall (fun l => strip l <> []) ls.
  Definition run_output (f : figures) (body : list text) : Prop :=
    exists head n4 la, body = head ++ n4 ++ [la] /\ run_head f head /\ no_map n4 /\ says (T map_p) (g_map f) la.
  Definition read_as (f : figures) (r : results) : Prop :=
    r_perp r = match g_perp f with None => (-1 # 1)%Q | Some v => v end /\
    table_says (g_precs f) (g_counts f) (r_precs r) /\ table_says (g_recs f) (g_counts f) (r_recs r) /\
    r_mrr r = g_mrr f /\ r_map r = g_map f.

  (** The line that names an algorithm. *)
  Definition good_name (a : algorithm) : Prop :=
    a_name a <> [] /\ Forall (fun c => is_space c = false) (a_name a) /\ ends_ok name_strip (a_name a) /\
    (forall t, a_name a <> T "#" ++ t) /\
    a_topics a <> [] /\ ~ In " "%char (a_topics a) /\ ends_ok topics_strip (a_topics a) /\
    strip (a_desc a) = a_desc a.

  (** An entry: blank lines and comments, the algorithm, and the output of its run. *)
  Record part := mkPart { p_lead : list text; p_alg : algorithm; p_body : list text; p_figs : figures }.
  Definition part_ok (p : part) : Prop :=
    Forall ignorable (p_lead p) /\ good_name (p_alg p) /\ run_output (p_figs p) (p_body p).
  Definition part_lines (p : part) : list text := p_lead p ++ algorithm_str (p_alg p) :: p_body p.

  (** ** Proofs *)
  Lemma other_false ps p l : Forall (fun l => forall p, In p ps -> ~ begins (T p) l) l -> In p ps ->
    Forall (fun l => starts (T p) (strip l) = false) l.
  Proof. intros F H. eapply Forall_impl; [|exact F]. intros x Hx. apply starts_false. exact (Hx p H). Qed.
  Lemma scan_other p q n x rest : other [p; q] n ->
    scan (starts (T p)) (starts (T q)) (first_line (n ++ x :: rest)) (other_lines (n ++ x :: rest)) =
    scan (starts (T p)) (starts (T q)) (x ++ nl) rest.
  Proof.
    intros F. apply scan_noise. eapply Forall_impl; [|exact F]. intros l H.
    split; apply starts_false; apply (H _); cbn; tauto.
  Qed.

  Lemma printed_lines title scores counts lines : prints title scores counts lines ->
    exists rest, lines = T title :: rest.
  Proof.
    intros (_ & _ & _ & _ & H). unfold print_table in H. destruct (mapM _ _) as [rows|]; [|discriminate]. cbn [bind] in H. injection H as <-. eauto.
  Qed.
  Lemma printed_read title scores counts lines more : formats fmt_group fmt_count fmt_val to_float rnd ->
    prints title scores counts lines ->
    exists t, read_table to_float (tl lines ++ more) = Ok (t, first_line more, other_lines more) /\ table_says scores counts t.
  Proof.
    intros F (A & B & C & D & E). destruct (C113_read_back _ _ _ heading rule _ _ (T title) scores counts lines more F A B C D E) as (t & R & S).
    exists t. split; [exact R|exact S].
  Qed.

  Lemma read_titled_printed p q n title scores counts lines more : formats fmt_group fmt_count fmt_val to_float rnd ->
    T p = T title -> strip (T title) = T title -> other [p; q] n -> prints title scores counts lines ->
    exists t, read_titled to_float (T p) (starts (T q)) (first_line (n ++ lines ++ more)) (other_lines (n ++ lines ++ more)) =
      Ok (t, first_line more, other_lines more) /\ table_says scores counts t.
  Proof.
    intros F E S O P. destruct (printed_lines _ _ _ _ P) as (rest & EL). destruct (printed_read _ _ _ _ more F P) as (t & R & TS).
    exists t. split; [|exact TS]. unfold read_titled. rewrite EL. cbn [app]. rewrite scan_other by exact O. rewrite scan_line, S, E.
    rewrite <- (app_nil_r (T title)) at 2. rewrite starts_app. rewrite EL in R. exact R.
  Qed.
  Lemma read_value_says p q n v l more : other [p; q] n -> says (T p) v l ->
    read_value to_float (T p) (starts (T q)) (first_line (n ++ l :: more)) (other_lines (n ++ l :: more)) =
      Ok (v, first_line more, other_lines more).
  Proof.
    intros O (t & E & V). unfold read_value. rewrite scan_other by exact O. rewrite scan_line, E, starts_app, skip_prefix, V. cbn [bind].
    unfold first_line, other_lines. destruct (readline more). reflexivity.
  Qed.

  Lemma head_read f head more : formats fmt_group fmt_count fmt_val to_float rnd -> run_head f head ->
    exists tp tr, table_says (g_precs f) (g_counts f) tp /\ table_says (g_recs f) (g_counts f) tr /\
      read_next_result_batch to_float (first_line (head ++ more)) (other_lines (head ++ more)) =
      do (m, l, file) <- read_map to_float (first_line more) (other_lines more);
      Ok (mkRes tp tr m (g_mrr f) (match g_perp f with None => (-1 # 1)%Q | Some v => v end), l, file).
  Proof.
    intros F (n1 & p & n2 & q & n3 & lm & -> & OP & P & O2 & Q0 & O3 & SM).
    destruct (printed_lines _ _ _ _ P) as (prest & EP).
    rewrite <- !app_assoc. cbn [app]. rewrite <- ?app_assoc.
    set (tail4 := lm :: more). set (tail3 := q ++ n3 ++ tail4). set (tail2 := p ++ n2 ++ tail3).
    unfold read_next_result_batch.
    (* the perplexity, and the lines left for the table of precisions *)
    assert (X : exists l1 f1 t, read_perplexity to_float (first_line (n1 ++ tail2)) (other_lines (n1 ++ tail2)) =
               Ok (match g_perp f with None => (-1 # 1)%Q | Some v => v end, l1, f1) /\
             read_precs to_float l1 f1 = Ok (t, first_line (n2 ++ tail3), other_lines (n2 ++ tail3)) /\
             table_says (g_precs f) (g_counts f) t).
    { destruct OP as [v n0 l n1 O0 S O1|n0 O0].
      - rewrite <- app_assoc. cbn [app]. do 2 eexists.
        destruct (read_titled_printed "Precision" "Recall" n1 "Precision" _ _ _ (n2 ++ tail3) F eq_refl eq_refl O1 P) as (t & R & TS).
        exists t. split; [|split; [exact R|exact TS]].
        exact (read_value_says perp_p "Precision" n0 v l (n1 ++ tail2) O0 S).
      - destruct (printed_read _ _ _ _ (n2 ++ tail3) F P) as (t & R & TS). exists (T "Precision"), (tl p ++ n2 ++ tail3), t.
        unfold tail2. rewrite EP in R |- *. cbn [app tl] in *. split; [|split; [|exact TS]].
        + unfold read_perplexity, read_value. change PerplexityPrefix with (T perp_p). change PrecisionTitle with (T "Precision").
          rewrite scan_other by exact O0. rewrite scan_line. reflexivity.
        + unfold read_precs, read_titled. rewrite scan_stripped by (discriminate || reflexivity). exact R. }
    destruct X as (l1 & f1 & tp & E1 & E2 & TP). rewrite E1. cbn [bind]. rewrite E2. cbn [bind].
    destruct (read_titled_printed "Recall" mrr_p n2 "Recall" _ _ _ (n3 ++ tail4) F eq_refl eq_refl O2 Q0) as (tr & E3 & TR).
    unfold read_recs. change RecallTitle with (T "Recall"). change MrrPrefix with (T mrr_p). unfold tail3. rewrite E3. cbn [bind].
    unfold read_mrr. change MrrPrefix with (T mrr_p). change MapPrefix with (T map_p). unfold tail4.
    rewrite (read_value_says mrr_p map_p n3 (g_mrr f) lm more O3 SM). cbn [bind].
    exists tp, tr. split; [exact TP|]. split; [exact TR|]. reflexivity.
  Qed.
  Lemma no_map_scan n x rest : no_map n ->
    scan (starts MapPrefix) (fun s => teqb s []) (first_line (n ++ x :: rest)) (other_lines (n ++ x :: rest)) =
    scan (starts MapPrefix) (fun s => teqb s []) (x ++ nl) rest.
  Proof.
    intros (O4 & NB). apply scan_noise. unfold other in O4. rewrite Forall_forall in *. intros y Hy. split.
    - apply starts_false. apply (O4 y Hy map_p). left. reflexivity.
    - destruct (teqb (strip y) []) eqn:Z; [|reflexivity]. apply teqb_eq in Z. destruct (NB y Hy Z).
  Qed.
  Lemma map_read n v l more : no_map n -> says (T map_p) v l ->
    read_map to_float (first_line (n ++ l :: more)) (other_lines (n ++ l :: more)) = Ok (v, first_line more, other_lines more).
  Proof.
    intros N (t & E & V). unfold read_map, read_value. rewrite no_map_scan by exact N. rewrite scan_line, E. change MapPrefix with (T map_p).
    rewrite starts_app, skip_prefix, V. cbn [bind]. unfold first_line, other_lines. destruct (readline more). reflexivity.
  Qed.
  Lemma map_missing n l more : no_map n -> strip l = [] ->
    read_map to_float (first_line (n ++ l :: more)) (other_lines (n ++ l :: more)) = Ok ((-1 # 1)%Q, [], more).
  Proof.
    intros N E. unfold read_map, read_value. rewrite no_map_scan by exact N. rewrite scan_line, E. reflexivity.
  Qed.

  (** The first line of a run is not taken for the end of the file. *)
  Lemma body_skip f head more : run_head f head ->
    let s := skip_from (first_line (head ++ more)) (other_lines (head ++ more)) in
    fst s <> [] /\ read_next_result_batch to_float (fst s) (snd s) =
      read_next_result_batch to_float (first_line (head ++ more)) (other_lines (head ++ more)).
  Proof.
    intros R s.
    assert (N : fst s <> []).
    { destruct R as (n1 & p & n2 & q & n3 & lm & -> & _ & P & _). destruct (printed_lines _ _ _ _ P) as (prest & ->).
      unfold s. rewrite <- !app_assoc. cbn [app]. set (rest := prest ++ _). clearbody rest. clear.
      induction n1 as [|l n1 IH].
      - change (first_line ([] ++ T "Precision" :: rest)) with (T "Precision" ++ nl). rewrite skip_line. discriminate.
      - change (first_line ((l :: n1) ++ T "Precision" :: rest)) with (l ++ nl).
        change (other_lines ((l :: n1) ++ T "Precision" :: rest)) with (n1 ++ T "Precision" :: rest). rewrite skip_line.
        destruct (_ || _); [exact IH|]. cbn [fst]. destruct (nl_cons l) as (c & w & ->). discriminate. }
    split; [exact N|]. unfold s in *. unfold read_next_result_batch. f_equal. unfold read_perplexity, read_value.
    rewrite (skip_scan (starts PerplexityPrefix) (starts PrecisionTitle) (head ++ more)); [reflexivity| |exact N].
    intros x [->|(t & ->)]; split; reflexivity.
  Qed.

  Lemma header_read a : good_name a -> from_file_entry (algorithm_str a ++ nl) = Ok a.
  Proof.
    intros (N & SP & EN & _ & NT & ST & ET & D). unfold from_file_entry, algorithm_str.
    replace ((a_name a ++ T ", K=" ++ a_topics a ++ T " " ++ a_desc a) ++ nl)
      with ((a_name a ++ T ",") ++ " "%char :: (T "K=" ++ a_topics a) ++ " "%char :: (a_desc a ++ nl)) by (rewrite <- !app_assoc; reflexivity).
    rewrite split_sep.
    2: { intros X. apply in_app_or in X as [X|[X|[]]]; [|discriminate X]. rewrite Forall_forall in SP. specialize (SP _ X). discriminate SP. }
    rewrite split_sep.
    2: { intros X. apply in_app_or in X as [X|X]; [cbn in X; intuition discriminate|contradiction]. }
    cbn [get_ nth_error bind skipn length].
    assert (L : length (split_on " "%char (a_desc a ++ nl)) <> 0).
    { intros Z. apply length_zero_iff_nil in Z. pose proof (join_split " "%char (a_desc a ++ nl)) as J. rewrite Z in J.
      destruct (nl_cons (a_desc a)) as (c & w & E). rewrite E in J. discriminate J. }
    destruct (S (S (length (split_on " "%char (a_desc a ++ nl)))) =? 2) eqn:Z; [apply Nat.eqb_eq in Z; lia|].
    rewrite (join_split " "%char (a_desc a ++ nl) : join_with (T " ") (split_on " "%char (a_desc a ++ nl)) = a_desc a ++ nl), strip_nl, D.
    rewrite (strip_by_spec name_strip [] (a_name a) (T ",") EN N eq_refl eq_refl : strip_by name_strip (a_name a ++ T ",") = a_name a).
    pose proof (strip_by_spec topics_strip (T "K=") (a_topics a) [] ET NT eq_refl eq_refl) as X. rewrite app_nil_r in X. rewrite X.
    destruct a. reflexivity.
  Qed.
  Lemma header_kept a : good_name a -> ~ ignorable (algorithm_str a).
  Proof.
    intros (N & SP & _ & NH & _). destruct (a_name a) as [|c s] eqn:E; [congruence|]. inversion SP as [|? ? Hc _]; subst.
    unfold ignorable, algorithm_str. rewrite E. cbn [app].
    destruct (strip_prefix c (s ++ T ", K=" ++ a_topics a ++ T " " ++ a_desc a) Hc) as (post & P).
    destruct (strip_head (c :: s ++ T ", K=" ++ a_topics a ++ T " " ++ a_desc a)) as [Z|(d & t & Z & _)].
    - intros _. unfold strip in Z. rewrite lstrip_id in Z by exact Hc.
      assert (Y : lstrip (rev (c :: s ++ T ", K=" ++ a_topics a ++ T " " ++ a_desc a)) = []) by (rewrite <- (rev_involutive (lstrip _)), Z; reflexivity).
      apply lstrip_nil in Y. rewrite forallb_forall in Y. rewrite (Y c) in Hc; [discriminate|]. apply -> in_rev. left. reflexivity.
    - rewrite Z in *. injection P as <- _. intros [X|(u & X)]; [discriminate X|]. injection X as -> _. apply (NH s). reflexivity.
  Qed.

  Lemma entry_head lead a f head more fuel : formats fmt_group fmt_count fmt_val to_float rnd ->
    Forall ignorable lead -> good_name a -> run_head f head ->
    exists tp tr, table_says (g_precs f) (g_counts f) tp /\ table_says (g_recs f) (g_counts f) tr /\
      forall m l file, read_map to_float (first_line more) (other_lines more) = Ok (m, l, file) ->
      let r := mkRes tp tr m (g_mrr f) (match g_perp f with None => (-1 # 1)%Q | Some v => v end) in
      read_entries to_float (S fuel) (lead ++ algorithm_str a :: head ++ more) =
      match l with
      | [] => Ok [(a, r)]
      | _ => do rest <- read_entries to_float fuel file; Ok ((a, r) :: rest)
      end.
  Proof.
    intros F L G R. destruct (head_read f head more F R) as (tp & tr & TP & TR & B). exists tp, tr. split; [exact TP|]. split; [exact TR|].
    intros m l file HM. cbv zeta. rewrite HM in B. cbn [bind] in B.
    destruct (body_skip f head more R) as (N & SK). cbn [read_entries].
    pose proof (skip_lead lead (algorithm_str a) (head ++ more) L (header_kept _ G)) as K.
    unfold first_line, other_lines in K. destruct (readline (lead ++ _)) as [l0 f0]. cbn [fst snd] in K. rewrite K.
    destruct (nl_cons (algorithm_str a)) as (c & w & E). rewrite E. rewrite <- E, header_read by exact G. cbn [bind].
    unfold first_line, other_lines in N, SK, B. destruct (readline (head ++ more)) as [l1 f1]. cbn [fst snd] in *.
    destruct (skip_from l1 f1) as [l2 f2]. cbn [fst snd] in *. destruct l2 as [|c2 w2]; [congruence|].
    rewrite SK, B. cbn [bind]. reflexivity.
  Qed.
  Lemma entry_read p more fuel : formats fmt_group fmt_count fmt_val to_float rnd -> part_ok p ->
    exists r, read_as (p_figs p) r /\
      read_entries to_float (S fuel) (part_lines p ++ more) =
      match first_line more with
      | [] => Ok [(p_alg p, r)]
      | _ => do rest <- read_entries to_float fuel (other_lines more); Ok ((p_alg p, r) :: rest)
      end.
  Proof.
    intros F (L & G & (head & n4 & la & EB & RH & NM & SA)).
    destruct (entry_head (p_lead p) (p_alg p) (p_figs p) head (n4 ++ la :: more) fuel F L G RH) as (tp & tr & TP & TR & E).
    specialize (E _ _ _ (map_read n4 _ la more NM SA)). cbv zeta in E.
    eexists. split; [|unfold part_lines; rewrite EB, <- app_assoc; cbn [app]; rewrite <- !app_assoc; cbn [app]; exact E].
    split; [reflexivity|]. split; [exact TP|]. split; [exact TR|]. split; reflexivity.
  Qed.

  (** ** C213: every entry is read *)
  Lemma entries_read parts : forall first tail fuel, formats fmt_group fmt_count fmt_val to_float rnd ->
    part_ok first -> Forall (fun sp => part_ok (snd sp)) parts -> Forall ignorable tail -> length parts + 2 <= fuel ->
    exists out, read_entries to_float fuel (part_lines first ++ flat_map (fun '(sep, p) => sep :: part_lines p) parts ++ tail) = Ok out /\
      Forall2 (fun p ar => fst ar = p_alg p /\ read_as (p_figs p) (snd ar)) (first :: map snd parts) out.
  Proof.
    induction parts as [|(sep, p) parts IH]; intros first tail fuel F P1 PS TL FU.
    - cbn [flat_map app map]. destruct fuel as [|fuel]; [lia|]. destruct (entry_read first tail fuel F P1) as (r & RA & E).
      rewrite E. destruct tail as [|l tail].
      + exists [(p_alg first, r)]. split; [reflexivity|]. constructor; [split; [reflexivity|exact RA]|constructor].
      + change (first_line (l :: tail)) with (l ++ nl). change (other_lines (l :: tail)) with tail.
        destruct (nl_cons l) as (c & w & ->). destruct fuel as [|fuel]; [cbn [length] in FU; lia|]. cbn [read_entries].
        inversion TL as [|? ? _ TL']; subst. pose proof (skip_tail tail TL') as K. unfold first_line, other_lines in K.
        destruct (readline tail) as [l0 f0]. cbn [fst snd] in K. rewrite K. cbn [bind].
        exists [(p_alg first, r)]. split; [reflexivity|]. constructor; [split; [reflexivity|exact RA]|constructor].
    - inversion PS as [|? ? P2 PS']; subst. cbn [snd] in P2. destruct fuel as [|fuel]; [lia|].
      cbn [flat_map app]. destruct (entry_read first (sep :: (part_lines p ++ flat_map (fun '(sep, p) => sep :: part_lines p) parts) ++ tail) fuel F P1) as (r & RA & E).
      rewrite <- !app_assoc in E |- *. rewrite E. 
      change (first_line (sep :: part_lines p ++ flat_map (fun '(sep, p) => sep :: part_lines p) parts ++ tail)) with (sep ++ nl).
      change (other_lines (sep :: part_lines p ++ flat_map (fun '(sep, p) => sep :: part_lines p) parts ++ tail))
        with (part_lines p ++ flat_map (fun '(sep, p) => sep :: part_lines p) parts ++ tail).
      destruct (nl_cons sep) as (c & w & ->).
      destruct (IH p tail fuel F P2 PS' TL) as (out & R & M); [cbn [length] in FU; lia|]. rewrite R. cbn [bind].
      exists ((p_alg first, r) :: out). split; [reflexivity|]. cbn [map]. constructor; [split; [reflexivity|exact RA]|exact M].
  Qed.

  (** A file of entries, one line between each and the next, is read entry by
      entry, every one with its own figures. *)
  Theorem C213_read_back : forall first parts tail, formats fmt_group fmt_count fmt_val to_float rnd ->
    part_ok first -> Forall (fun sp => part_ok (snd sp)) parts -> Forall ignorable tail ->
    exists out, read_all to_float (part_lines first ++ flat_map (fun '(sep, p) => sep :: part_lines p) parts ++ tail) = Ok out /\
      Forall2 (fun p ar => fst ar = p_alg p /\ read_as (p_figs p) (snd ar)) (first :: map snd parts) out.
  Proof.
    intros first parts tail F P1 PS TL. unfold read_all. apply entries_read; try assumption.
    rewrite app_length, app_length.
    assert (L : forall p, 1 <= length (part_lines p)) by (intros p; unfold part_lines; rewrite app_length; cbn [length]; lia).
    pose proof (L first).
    assert (M : length parts <= length (flat_map (fun '(sep, p) => sep :: part_lines p) parts)).
    { clear. induction parts as [|(s, p) ps IH]; [reflexivity|]. cbn [flat_map length]. rewrite app_length. cbn [length]. lia. }
    lia.
  Qed.
  (** A file of blank lines and comments has no entries. *)
  Theorem C213_no_entries : forall tail, Forall ignorable tail -> read_all to_float tail = Ok [].
  Proof.
    intros tail TL. unfold read_all. cbn [read_entries]. pose proof (skip_tail tail TL) as K. unfold first_line, other_lines in K.
    destruct (readline tail) as [l f]. cbn [fst snd] in K. rewrite K. reflexivity.
  Qed.

  (** Output without a mean average precision: the first blank line ends it, with
      -1 for the precision, and nothing after that line is read. *)
  Theorem C213_without_map : forall lead a f head n blank more, formats fmt_group fmt_count fmt_val to_float rnd ->
    Forall ignorable lead -> good_name a -> run_head f head -> no_map n -> strip blank = [] ->
    exists r, read_all to_float (lead ++ algorithm_str a :: head ++ n ++ blank :: more) = Ok [(a, r)] /\
      r_map r = (-1 # 1)%Q /\ r_mrr r = g_mrr f /\
      table_says (g_precs f) (g_counts f) (r_precs r) /\ table_says (g_recs f) (g_counts f) (r_recs r).
  Proof.
    intros lead a f head n blank more F L G RH NM B. unfold read_all.
    destruct (entry_head lead a f head (n ++ blank :: more) (length (lead ++ algorithm_str a :: head ++ n ++ blank :: more)) F L G RH)
      as (tp & tr & TP & TR & E).
    specialize (E _ _ _ (map_missing n blank more NM B)). cbv zeta in E. eexists. split; [exact E|].
    split; [reflexivity|]. split; [reflexivity|]. split; [exact TP|exact TR].
  Qed.

  (** ** C214: the output of several folds *)
  (** One fold: chatter, the perplexity, more chatter, the two tables, and the two
      means, which are printed with a blank before the colon (lines 629-665, 984-1022
      of __main__.py). *)
  Definition all_p : list string := [perp_p; "Precision"; "Recall"; mrr_p; map_p]%string.
  Record fold_figs := mkFF { ff_perp : Q; ff_precs : dict (list Q); ff_recs : dict (list Q); ff_counts : dict nat }.
  Definition fold_output (f : fold_figs) (lines : list text) : Prop :=
    exists n0 l n1 p q m a n2, lines = n0 ++ l :: n1 ++ p ++ q ++ (T "Mean reciprocal-rank : " ++ m) :: (T "Mean Average Precision : " ++ a) :: n2 /\
      other all_p n0 /\ says (T perp_p) (ff_perp f) l /\ other all_p n1 /\
      prints "Precision" (ff_precs f) (ff_counts f) p /\ prints "Recall" (ff_recs f) (ff_counts f) q /\ other all_p n2.
  (** The final results (lines 678-682, 1034-1038). *)
  Definition final_output (f : figures) (lines : list text) : Prop :=
    exists n0 p q lm la, lines = n0 ++ p ++ q ++ [lm; la] /\ other all_p n0 /\
      prints "Precision" (g_precs f) (g_counts f) p /\ prints "Recall" (g_recs f) (g_counts f) q /\
      says (T mrr_p) (g_mrr f) lm /\ says (T map_p) (g_map f) la.

  Lemma other_app ps a b : other ps (a ++ b) <-> other ps a /\ other ps b.
  Proof. unfold other. apply Forall_app. Qed.
  Lemma other_less ps qs a : (forall p, In p qs -> In p ps) -> other ps a -> other qs a.
  Proof. intros H. apply Forall_impl. intros x Hx p Hp. apply Hx, H, Hp. Qed.
  Lemma printed_other title scores counts lines : title = "Precision"%string \/ title = "Recall"%string -> other all_p [heading; rule] ->
    prints title scores counts lines -> other [mrr_p; map_p] lines.
  Proof.
    intros HT HR (_ & _ & _ & _ & P). unfold print_table in P. destruct (mapM _ _) as [rows|] eqn:E; [|discriminate]. cbn [bind] in P. injection P as <-.
    constructor; [|].
    { intros p Hp (t & X). destruct HT as [-> | ->]; destruct Hp as [<-|[<-|[]]]; discriminate X. }
    assert (HR' : other [mrr_p; map_p] [heading; rule]) by (eapply other_less; [|exact HR]; cbn; tauto).
    inversion HR' as [|? ? H1 H2]; subst. inversion H2 as [|? ? H3 _]; subst. constructor; [exact H1|]. constructor; [exact H3|].
    revert rows E. induction (gsort (map fst scores)) as [|g gs IH]; intros rows E; cbn [mapM] in E.
    - injection E as <-. constructor.
    - destruct (get_key g counts) as [c|]; [|discriminate]. cbn [bind] in E. destruct (get_key g scores) as [v|]; [|discriminate]. cbn [bind] in E.
      destruct (mapM _ gs) as [rows'|] eqn:E'; [|discriminate]. cbn [bind] in E. injection E as <-. constructor; [|apply (IH rows'); reflexivity].
      intros p Hp (t & X). rewrite <- strip_nl in X. unfold nl in X. rewrite strip_row in X.
      destruct Hp as [<-|[<-|[]]]; discriminate X.
  Qed.
  Lemma fold_means_other m a : other [mrr_p; map_p] [T "Mean reciprocal-rank : " ++ m; T "Mean Average Precision : " ++ a].
  Proof.
    assert (X : forall q x p, is_space "M"%char = false -> begins p ("M"%char :: q ++ x) -> exists t, "M"%char :: q ++ x = p ++ t).
    { intros q x p H (t & E). destruct (strip_prefix "M" (q ++ x) H) as (post & P). rewrite E, <- app_assoc in P. eauto. }
    constructor; [|constructor; [|constructor]].
    - intros p Hp B. apply (X (tl (T "Mean reciprocal-rank : ")) m) in B; [|reflexivity]. destruct B as (t & E).
      destruct Hp as [<-|[<-|[]]]; cbn in E; discriminate E.
    - intros p Hp B. apply (X (tl (T "Mean Average Precision : ")) a) in B; [|reflexivity]. destruct B as (t & E).
      destruct Hp as [<-|[<-|[]]]; cbn in E; discriminate E.
  Qed.
  Lemma perp_other v l : says (T perp_p) v l -> other [mrr_p; map_p] [l].
  Proof.
    intros (t & E & _). constructor; [|constructor]. intros p Hp (u & X). rewrite E in X. destruct Hp as [<-|[<-|[]]]; discriminate X.
  Qed.
  Lemma fold_other f lines : other all_p [heading; rule] -> fold_output f lines -> other [mrr_p; map_p] lines.
  Proof.
    intros HR (n0 & l & n1 & p & q & m & a & n2 & -> & O0 & S & O1 & P & R & O2).
    assert (W : forall n, other all_p n -> other [mrr_p; map_p] n) by (intros n; apply other_less; cbn; tauto).
    apply other_app. split; [apply W, O0|]. apply (proj2 (other_app _ [l] _)). split; [apply (perp_other _ _ S)|].
    apply other_app. split; [apply W, O1|]. apply other_app. split; [eapply printed_other; [left; reflexivity|exact HR|exact P]|].
    apply other_app. split; [eapply printed_other; [right; reflexivity|exact HR|exact R]|].
    apply (proj2 (other_app _ [_; _] n2)). split; [apply fold_means_other|apply W, O2].
  Qed.

  (** From the output of any number of folds and the final results, the perplexity
      and the tables of the first fold are read, with the means of the final
      results. *)
  Theorem C214_first_fold : forall lead a f0 first folds fs fin final tail, formats fmt_group fmt_count fmt_val to_float rnd ->
    other all_p [heading; rule] ->
    Forall ignorable lead -> good_name a -> fold_output f0 first -> Forall2 fold_output folds fs -> final_output fin final -> Forall ignorable tail ->
    exists r, read_all to_float (lead ++ algorithm_str a :: first ++ concat fs ++ final ++ tail) = Ok [(a, r)] /\
      r_perp r = ff_perp f0 /\ table_says (ff_precs f0) (ff_counts f0) (r_precs r) /\ table_says (ff_recs f0) (ff_counts f0) (r_recs r) /\
      r_mrr r = g_mrr fin /\ r_map r = g_map fin.
  Proof.
    intros lead a f0 first folds fs fin final tail F HR L G FO FS (m0 & p' & q' & lm & la & EF & O0' & P' & R' & SM & SA) TL.
    destruct FO as (n0 & l & n1 & p & q & m & a0 & n2 & EL & O0 & S & O1 & P & R & O2).
    assert (W : forall n ps, (forall p, In p ps -> In p all_p) -> other all_p n -> other ps n) by (intros n ps Hi; apply other_less; exact Hi).
    assert (W2 : forall n, other all_p n -> other [mrr_p; map_p] n) by (intros n; apply W; cbn; tauto).
    assert (OC : other [mrr_p; map_p] (concat fs)).
    { clear - FS HR. induction FS as [|x y xs ys H _ IH]; [constructor|]. cbn [concat]. apply other_app. split; [eapply fold_other; eassumption|exact IH]. }
    set (fig := mkFig (Some (ff_perp f0)) (ff_precs f0) (ff_recs f0) (ff_counts f0) (g_mrr fin) (g_map fin)).
    set (mid := (T "Mean reciprocal-rank : " ++ m) :: (T "Mean Average Precision : " ++ a0) :: n2).
    set (body := (n0 ++ l :: n1) ++ p ++ [] ++ q ++ (mid ++ concat fs ++ m0 ++ p' ++ q') ++ [lm]).
    assert (RO : run_output fig (body ++ [] ++ [la])).
    { exists body, [], la. split; [reflexivity|]. split; [|split; [split; constructor|exact SA]].
      exists (n0 ++ l :: n1), p, [], q, (mid ++ concat fs ++ m0 ++ p' ++ q'), lm. split; [reflexivity|]. split.
      { apply With_perplexity; [apply W; [cbn; tauto|exact O0]|exact S|apply W; [cbn; tauto|exact O1]]. }
      split; [exact P|]. split; [constructor|]. split; [exact R|]. split; [|exact SM].
      apply other_app. split.
      { apply (proj2 (other_app _ [_; _] n2)). split; [apply fold_means_other|apply W2, O2]. }
      apply other_app. split; [exact OC|]. apply other_app. split; [apply W2, O0'|].
      apply other_app. split; [eapply printed_other; [left; reflexivity|exact HR|exact P']|eapply printed_other; [right; reflexivity|exact HR|exact R']]. }
    destruct (C213_read_back (mkPart lead a (body ++ [] ++ [la]) fig) [] tail F) as (out & E & M).
    { split; [exact L|]. split; [exact G|exact RO]. }
    { constructor. }
    { exact TL. }
    inversion M as [|? (a1 & r) ? out' (EA & RA) M']; subst. inversion M'; subst. cbn [p_alg fst snd p_figs] in *. subst a1.
    exists r. split.
    { rewrite <- E. f_equal. unfold part_lines, body, mid. cbn [p_lead p_alg p_body flat_map app]. rewrite <- !app_assoc. cbn [app].
      rewrite <- !app_assoc. cbn [app]. rewrite <- !app_assoc. cbn [app]. rewrite <- ?app_assoc. reflexivity. }
    destruct RA as (A1 & A2 & A3 & A4 & A5). cbn [g_perp g_precs g_counts g_recs g_mrr g_map fig] in *.
    split; [exact A1|]. split; [exact A2|]. split; [exact A3|]. split; [exact A4|exact A5].
  Qed.
End Spec.

(** ** Concrete files *)
(** Counts and (whole) values in decimal. *)
Definition whole (q : Q) : list ascii := str (Z.to_nat (Qnum q)).
Definition whole_rnd (q : Q) : Q := inject_Z (Z.of_nat (Z.to_nat (Qnum q))).
Lemma whole_formats : formats (fun _ => T "g") str whole demo_float whole_rnd.
Proof.
  destruct demo_formats as (A & B & _). split; [exact A|]. split; [exact B|]. intros q. apply (B (Z.to_nat (Qnum q))).
Qed.
Definition case_heading : text := T "| Group    | Doc Count |".
Definition case_rule : text := T "|----------|-----------|".
Definition case_scores (v : Q) : dict (list Q) := map (fun g => (g, repeat v 10)) eval_groups.
Definition case_counts (n : nat) : dict nat := combine eval_groups [1; 2; n; 4; 7 + n].
Definition case_table (title : string) (v : Q) (n : nat) : list text :=
  match print_table (fun _ => T "g") str whole case_heading case_rule (T title) (case_scores v) (case_counts n) with
  | Ok l => l
  | Raise _ => []
  end.
Notation case_prints := (prints (fun _ => T "g") str whole case_heading case_rule).
Lemma case_printed title v n : case_prints title (case_scores v) (case_counts n) (case_table title v n).
Proof.
  split; [reflexivity|]. split; [|split; [|split]].
  - intros g w H. unfold case_scores in H. cbn [map eval_groups] in H. cbn [lookup] in H.
    repeat match type of H with (if ?b then _ else _) = _ => destruct b; [injection H as <-; reflexivity|] end. discriminate H.
  - intros g Hg. cbn in Hg. repeat destruct Hg as [<-|Hg]; try discriminate. destruct Hg.
  - intros a b Ha Hb. cbn in Ha, Hb. injection Ha as <-. injection Hb as <-. lia.
  - reflexivity.
Qed.
Definition case_mrr (v : nat) : text := T "Mean reciprocal-rank: " ++ str v.
Definition case_map (v : nat) : text := T "Mean average-precision: " ++ str v.
Definition case_perp (v : nat) : text := T "Training perplexity is " ++ str v ++ T " ".
Definition case_figs (perp p r n mrr map : nat) : figures :=
  mkFig (Some (inject_Z (Z.of_nat perp))) (case_scores (inject_Z (Z.of_nat p))) (case_scores (inject_Z (Z.of_nat r))) (case_counts n)
        (inject_Z (Z.of_nat mrr)) (inject_Z (Z.of_nat map)).
Definition case_head (perp p r n mrr : nat) : list text :=
  [case_perp perp; T "Fold  0: Mean-Precisions at "] ++ case_table "Precision" (inject_Z (Z.of_nat p)) n ++
  case_table "Recall" (inject_Z (Z.of_nat r)) n ++ [case_mrr mrr].
Definition lda : algorithm := mkAlg (T "LDA") (T "10") (T "trained, for a while").
Definition rtm : algorithm := mkAlg (T "RTM") (T "25") [].
Definition part1 : part := mkPart [T "# results"; []] lda (case_head 12 3 4 5 6 ++ [] ++ [case_map 7]) (case_figs 12 3 4 5 6 7).
Definition part2 : part := mkPart [] rtm (case_head 22 1 2 3 1 ++ [] ++ [case_map 2]) (case_figs 22 1 2 3 1 2).

Lemma other_b ps l : forallb (fun x => forallb (fun p => negb (starts (T p) (strip x))) ps) l = true -> other ps l.
Proof.
  intros H. unfold other. rewrite Forall_forall. rewrite forallb_forall in H. intros x Hx p Hp. specialize (H x Hx).
  rewrite forallb_forall in H. specialize (H p Hp). apply negb_true_iff in H. apply starts_false. exact H.
Qed.
Lemma ends_ok_b p s : (match s with [] => true | c :: _ => negb (p c) end && match rev s with [] => true | c :: _ => negb (p c) end) = true -> ends_ok p s.
Proof.
  intros H. apply andb_prop in H as [A B]. split.
  - intros c t ->. apply negb_true_iff, A.
  - intros c t ->. rewrite rev_app_distr in B. apply negb_true_iff, B.
Qed.
Lemma lda_good : good_name lda.
Proof. repeat apply conj; try discriminate; try reflexivity; try (apply ends_ok_b; reflexivity); [repeat constructor|cbn; intuition discriminate]. Qed.
Lemma rtm_good : good_name rtm.
Proof. repeat apply conj; try discriminate; try reflexivity; try (apply ends_ok_b; reflexivity); [repeat constructor|cbn; intuition discriminate]. Qed.
Notation case_run_head := (run_head (fun _ => T "g") str whole case_heading case_rule demo_float).
Notation case_part_ok := (part_ok (fun _ => T "g") str whole case_heading case_rule demo_float).
Lemma head_of perp p r n mrr map line_perp line_mrr :
  line_perp = case_perp perp -> line_mrr = case_mrr mrr ->
  says demo_float (T perp_p) (inject_Z (Z.of_nat perp)) line_perp -> says demo_float (T mrr_p) (inject_Z (Z.of_nat mrr)) line_mrr ->
  case_run_head (case_figs perp p r n mrr map) (case_head perp p r n mrr).
Proof.
  intros -> -> SP SM. exists [case_perp perp; T "Fold  0: Mean-Precisions at "], (case_table "Precision" (inject_Z (Z.of_nat p)) n), [],
    (case_table "Recall" (inject_Z (Z.of_nat r)) n), [], (case_mrr mrr).
  split; [reflexivity|]. split; [|split; [apply case_printed|split; [constructor|split; [apply case_printed|split; [constructor|exact SM]]]]].
  apply (With_perplexity demo_float _ [] _ [_]); [constructor|exact SP|apply other_b; reflexivity].
Qed.
Lemma part1_ok : case_part_ok part1.
Proof.
  split; [|split; [exact lda_good|]].
  - constructor; [right; eexists; reflexivity|]. constructor; [left; reflexivity|constructor].
  - exists (case_head 12 3 4 5 6), [], (case_map 7). split; [reflexivity|]. split; [|split; [split; constructor|eexists; split; reflexivity]].
    eapply head_of; try reflexivity; eexists; split; reflexivity.
Qed.
Lemma part2_ok : case_part_ok part2.
Proof.
  split; [|split; [exact rtm_good|]].
  - constructor.
  - exists (case_head 22 1 2 3 1), [], (case_map 2). split; [reflexivity|]. split; [|split; [split; constructor|eexists; split; reflexivity]].
    eapply head_of; try reflexivity; eexists; split; reflexivity.
Qed.

Example C213_case : case_part_ok part1 /\ case_part_ok part2 /\
  exists r1 r2, read_all demo_float (part_lines part1 ++ [[]] ++ part_lines part2 ++ [T "# end"]) = Ok [(lda, r1); (rtm, r2)] /\
    r_perp r1 = 12%Q /\ r_perp r2 = 22%Q /\ nth 3 (e_vals (r_precs r1 All)) 0%Q = 3%Q /\ nth 3 (e_vals (r_recs r2 All)) 0%Q = 2%Q /\
    r_mrr r1 = 6%Q /\ r_map r2 = 2%Q.
Proof. split; [exact part1_ok|]. split; [exact part2_ok|]. do 2 eexists. split; [vm_compute; reflexivity|]. repeat split. Qed.

(** Without a line between the entries, the name of the second is lost and its
    first line taken for the name. *)
Theorem C213_adjacent_entries_refuted : exists p1 p2 out, case_part_ok p1 /\ case_part_ok p2 /\
  read_all demo_float (part_lines p1 ++ part_lines p2) = Ok out /\
  map fst out = [p_alg p1; mkAlg (T "Training") (T "perplexity") (T "is 22")] /\ ~ In (p_alg p2) (map fst out).
Proof.
  exists part1, part2. eexists. split; [exact part1_ok|]. split; [exact part2_ok|].
  split; [vm_compute; reflexivity|]. split; [reflexivity|]. cbn. intros [H|[H|[]]]; discriminate H.
Qed.
(** An entry without its mean average precision, as in-sample link prediction
    prints it, hides every entry after it. *)
Theorem C213_entries_after_missing_map_refuted : exists f head p2 r, case_run_head f head /\ case_part_ok p2 /\
  read_all demo_float (algorithm_str lda :: head ++ [[]] ++ part_lines p2) = Ok [(lda, r)].
Proof.
  exists (case_figs 12 3 4 5 6 0), (case_head 12 3 4 5 6), part2. eexists. split; [|split; [exact part2_ok|vm_compute; reflexivity]].
  eapply head_of; try reflexivity; eexists; split; reflexivity.
Qed.

(** Two folds. *)
Definition case_fold (perp p r n : nat) : list text :=
  [[]; T "Fold 0"; case_perp perp; T "Fold  0: Mean-Precisions at "] ++ case_table "Precision" (inject_Z (Z.of_nat p)) n ++
  case_table "Recall" (inject_Z (Z.of_nat r)) n ++ [T "Mean reciprocal-rank : 3"; T "Mean Average Precision : 4"].
Definition case_ff (perp p r n : nat) : fold_figs :=
  mkFF (inject_Z (Z.of_nat perp)) (case_scores (inject_Z (Z.of_nat p))) (case_scores (inject_Z (Z.of_nat r))) (case_counts n).
Notation case_fold_output := (fold_output (fun _ => T "g") str whole case_heading case_rule demo_float).
Notation case_final_output := (final_output (fun _ => T "g") str whole case_heading case_rule demo_float).
Definition case_final : list text :=
  [T "-----"; []; T " Final Results"; []] ++ case_table "Precision" 2%Q 8 ++ case_table "Recall" 3%Q 8 ++ [case_mrr 5; case_map 6].
Definition case_fin : figures := mkFig None (case_scores 2%Q) (case_scores 3%Q) (case_counts 8) 5%Q 6%Q.
Lemma case_fold_ok perp p r n : says demo_float (T perp_p) (inject_Z (Z.of_nat perp)) (case_perp perp) ->
  case_fold_output (case_ff perp p r n) (case_fold perp p r n).
Proof.
  intros SP. exists [[]; T "Fold 0"], (case_perp perp), [T "Fold  0: Mean-Precisions at "], (case_table "Precision" (inject_Z (Z.of_nat p)) n),
    (case_table "Recall" (inject_Z (Z.of_nat r)) n), (T "3"), (T "4"), [].
  split; [reflexivity|]. split; [apply other_b; reflexivity|]. split; [exact SP|]. split; [apply other_b; reflexivity|].
  split; [apply case_printed|]. split; [apply case_printed|constructor].
Qed.
Lemma case_final_ok : case_final_output case_fin case_final.
Proof.
  exists [T "-----"; []; T " Final Results"; []], (case_table "Precision" 2%Q 8), (case_table "Recall" 3%Q 8), (case_mrr 5), (case_map 6).
  split; [reflexivity|]. split; [apply other_b; reflexivity|]. split; [apply (case_printed "Precision" 2%Q 8)|].
  split; [apply (case_printed "Recall" 3%Q 8)|]. split; eexists; split; reflexivity.
Qed.
(** The final precisions are not the ones read from the output of several folds. *)
Theorem C214_final_results_refuted : exists f0 first f1 second fin final r,
  case_fold_output f0 first /\ case_fold_output f1 second /\ case_final_output fin final /\
  read_all demo_float (algorithm_str lda :: first ++ second ++ final) = Ok [(lda, r)] /\
  (forall v, lookup (-1, -1)%Z (g_precs fin) = Some v -> map whole_rnd v <> e_vals (r_precs r All)) /\
  r_mrr r = g_mrr fin.
Proof.
  exists (case_ff 12 1 3 3), (case_fold 12 1 3 3), (case_ff 12 3 3 5), (case_fold 12 3 3 5), case_fin, case_final. eexists.
  split; [apply case_fold_ok; eexists; split; reflexivity|]. split; [apply case_fold_ok; eexists; split; reflexivity|].
  split; [exact case_final_ok|]. split; [vm_compute; reflexivity|]. split; [|reflexivity].
  intros v H. cbn in H. injection H as <-. vm_compute. discriminate.
Qed.
Example C214_case : case_fold_output (case_ff 12 1 3 3) (case_fold 12 1 3 3) /\ case_final_output case_fin case_final /\
  other all_p [case_heading; case_rule] /\ good_name lda /\
  exists r, read_all demo_float (algorithm_str lda :: case_fold 12 1 3 3 ++ case_fold 12 3 3 5 ++ case_final) = Ok [(lda, r)] /\
    nth 0 (e_vals (r_precs r Range0_3)) 0%Q = 1%Q /\ e_docs (r_precs r All) = 10%Q /\ r_map r = 6%Q.
Proof.
  split; [apply case_fold_ok; eexists; split; reflexivity|]. split; [exact case_final_ok|]. split; [apply other_b; reflexivity|].
  split; [exact lda_good|]. eexists. split; [vm_compute; reflexivity|]. repeat split.
Qed.

(** ** C215: the comma-separated values *)
(** The usual reading of one line: cells are separated by commas, a quoted part
    extends to the closing quote, and a doubled quote inside it stands for one. *)
Definition push (c : ascii) (l : list text) : list text :=
  match l with
  | [] => [[c]]
  | w :: ws => (c :: w) :: ws
  end.
Fixpoint csv_cells (quoted : bool) (s : text) : list text :=
  match s with
  | [] => [[]]
  | c :: s' =>
    if quoted then
      if ascii_dec c quote then
        match s' with
        | d :: s'' => if ascii_dec d quote then push quote (csv_cells true s'') else csv_cells false s'
        | [] => [[]]
        end
      else push c (csv_cells true s')
    else if ascii_dec c ","%char then [] :: csv_cells false s'
    else if ascii_dec c quote then csv_cells true s'
    else push c (csv_cells false s')
  end.

(** Text that needs no quotes. *)
Definition bare (s : text) : Prop := ~ In ","%char s /\ ~ In quote s.
Lemma csv_cells_cons q s : exists w ws, csv_cells q s = w :: ws.
Proof.
  assert (G : forall n q s, length s <= n -> exists w ws, csv_cells q s = w :: ws).
  { induction n as [|n IH]; intros q0 s0 L.
    - destruct s0; [cbn; eauto|cbn in L; lia].
    - destruct s0 as [|c s0]; [cbn; eauto|]. cbn [length] in L. cbn [csv_cells].
      assert (P : forall d l, exists w ws, push d l = w :: ws) by (intros d [|? ?]; cbn; eauto).
      destruct q0; [destruct (ascii_dec c quote); [destruct s0 as [|d s1]; [eauto|]; destruct (ascii_dec d quote); [apply P|apply IH; exact (le_S_n _ _ L)]|apply P]|].
      destruct (ascii_dec c ","); [eauto|]. destruct (ascii_dec c quote); [apply IH; lia|apply P]. }
  apply (G (length s)). reflexivity.
Qed.
Lemma csv_bare s rest : bare s -> csv_cells false (s ++ ","%char :: rest) = s :: csv_cells false rest.
Proof.
  intros (A & B). induction s as [|c s IH]; [reflexivity|]. cbn [app csv_cells].
  destruct (ascii_dec c ",") as [->|D]; [exfalso; apply A; left; reflexivity|].
  destruct (ascii_dec c quote) as [->|D']; [exfalso; apply B; left; reflexivity|].
  rewrite IH by (intros H; (apply A + apply B); right; exact H). reflexivity.
Qed.
Lemma csv_bare_end s : bare s -> csv_cells false s = [s].
Proof.
  intros (A & B). induction s as [|c s IH]; [reflexivity|]. cbn [csv_cells].
  destruct (ascii_dec c ",") as [->|D]; [exfalso; apply A; left; reflexivity|].
  destruct (ascii_dec c quote) as [->|D']; [exfalso; apply B; left; reflexivity|].
  rewrite IH by (intros H; (apply A + apply B); right; exact H). reflexivity.
Qed.
Lemma csv_inside s rest : ~ In quote s -> csv_cells true (s ++ [quote] ++ ","%char :: rest) = s :: csv_cells false rest.
Proof.
  intros B. induction s as [|c s IH]; [reflexivity|]. cbn [app csv_cells].
  destruct (ascii_dec c quote) as [->|D']; [exfalso; apply B; left; reflexivity|].
  cbn [app] in IH. rewrite IH by (intros H; apply B; right; exact H). reflexivity.
Qed.
Lemma replace1_none c r s : ~ In c s -> replace1 c r s = s.
Proof.
  intros H. induction s as [|x s IH]; [reflexivity|]. unfold replace1 in *. cbn [flat_map]. rewrite IH by (intros X; apply H; right; exact X).
  destruct (ascii_dec x c) as [->|]; [exfalso; apply H; left; reflexivity|reflexivity].
Qed.
Lemma csv_quoted s rest : ~ In quote s -> csv_cells false (quote_text s ++ ","%char :: rest) = s :: csv_cells false rest.
Proof.
  intros H. unfold quote_text. rewrite (replace1_none quote [quote; quote] s H), (replace1_none quote [quote; quote] s H). rewrite <- !app_assoc. cbn [app csv_cells].
  destruct (ascii_dec quote ",") as [E|_]; [discriminate E|]. destruct (ascii_dec quote quote) as [_|E]; [|congruence].
  apply (csv_inside s rest H).
Qed.

Lemma nth_error_blocks {A B} (f : A -> list B) k (K : forall x, length (f x) = k) l : forall i j x, nth_error l i = Some x -> j < k ->
  nth_error (flat_map f l) (i * k + j) = nth_error (f x) j.
Proof.
  induction l as [|y l IH]; intros i j x H J; [destruct i; discriminate|]. cbn [flat_map]. destruct i as [|i].
  - injection H as ->. cbn [Nat.mul plus]. apply nth_error_app1. rewrite K. exact J.
  - cbn [nth_error] in H. rewrite nth_error_app2 by (rewrite K; lia). rewrite K.
    replace (S i * k + j - k) with (i * k + j) by lia. apply IH; assumption.
Qed.
Lemma length_blocks {A B} (f : A -> list B) k (K : forall x, length (f x) = k) l : length (flat_map f l) = length l * k.
Proof. induction l as [|y l IH]; [reflexivity|]. cbn [flat_map length]. rewrite app_length, K, IH. reflexivity. Qed.

Section Csv.
  Context (fmt : Q -> text) (fmt_int : Z -> text).
  Definition plain_numbers : Prop := (forall q, bare (fmt q)) /\ (forall z, bare (fmt_int z)).

  (** The groups and the numbers of documents m, in the order documented. *)
  Definition group_names : list string := ["0->"; "0->3"; "3->"; "3->5"; "5->"; "5->10"; "10->"]%string.
  Definition ms_names : list string := ["10"; "20"; "30"; "40"; "50"; "75"; "100"; "150"; "250"; "500"]%string.

  Lemma read_row_cells a r g i : plain_numbers -> bare (a_topics a) -> ~ In quote (a_name a) -> ~ In quote (a_desc a) -> i < Ms ->
    csv_cells false (write_row fmt fmt_int a r g i) =
    [a_name a; a_topics a; a_desc a; fmt (r_mrr r); fmt (r_map r);
     if Qlt_le_dec (r_perp r) (9 # 10) then [] else fmt (r_perp r); range_name g; nth i m_names [];
     fmt_int (int_of (e_docs (r_precs r g))); fmt (nth i (e_vals (r_precs r g)) 0%Q); fmt (nth i (e_vals (r_recs r g)) 0%Q)].
  Proof.
    intros (F & Z) TP N D I. unfold write_row, comma. change (T ",") with [","%char]. cbn [app].
    assert (QN : ~ In quote (range_name g)) by (destruct g; cbn; intuition discriminate).
    assert (BM : bare (nth i m_names [])).
    { do 10 (destruct i as [|i]; [split; cbn; intuition discriminate|]). unfold Ms in I. lia. }
    assert (BP : bare (to_nullable fmt (r_perp r))) by (unfold to_nullable; destruct (Qlt_le_dec _ _); [split; intros []|apply F]).
    rewrite csv_quoted by exact N. rewrite csv_bare by exact TP. rewrite csv_quoted by exact D.
    rewrite csv_bare by apply F. rewrite csv_bare by apply F. rewrite csv_bare by exact BP. rewrite csv_quoted by exact QN.
    rewrite csv_bare by exact BM. rewrite csv_bare by apply Z. rewrite csv_bare by apply F. rewrite csv_bare_end by apply F. reflexivity.
  Qed.

  (** Every algorithm has seventy lines, one for every group and every m; the line
      of an algorithm, a group and an m has their names and figures. *)
  Theorem C215_rows : forall rs k a r g gname gr i mname, plain_numbers ->
    nth_error rs k = Some (a, r) -> bare (a_topics a) -> ~ In quote (a_name a) -> ~ In quote (a_desc a) ->
    nth_error FullGroups g = Some gr -> nth_error group_names g = Some gname -> nth_error ms_names i = Some mname ->
    length (write_all fmt fmt_int rs) = 1 + length rs * 70 /\
    exists line, nth_error (write_all fmt fmt_int rs) (1 + (k * 70 + (g * 10 + i))) = Some line /\
      csv_cells false line =
      [a_name a; a_topics a; a_desc a; fmt (r_mrr r); fmt (r_map r);
       if Qlt_le_dec (r_perp r) (9 # 10) then [] else fmt (r_perp r); T gname; T mname;
       fmt_int (int_of (e_docs (r_precs r gr))); fmt (nth i (e_vals (r_precs r gr)) 0%Q); fmt (nth i (e_vals (r_recs r gr)) 0%Q)].
  Proof.
    intros rs k a r g gname gr i mname P E TP N D EG EN EM.
    assert (I : i < Ms) by (change Ms with (length ms_names); apply nth_error_Some; congruence).
    assert (K1 : forall a r g, length (map (write_row fmt fmt_int a r g) (seq 0 Ms)) = Ms) by (intros; rewrite map_length, seq_length; reflexivity).
    assert (K2 : forall x : algorithm * results, length ((fun '(a, r) => flat_map (fun g => map (write_row fmt fmt_int a r g) (seq 0 Ms)) FullGroups) x) = 70).
    { intros (a', r'). rewrite (length_blocks _ Ms (K1 a' r')). reflexivity. }
    assert (G7 : g < 7) by (change 7 with (length FullGroups); apply nth_error_Some; congruence).
    split.
    - unfold write_all. cbn [length]. rewrite (length_blocks _ 70 K2). reflexivity.
    - exists (write_row fmt fmt_int a r gr i). split.
      + unfold write_all. cbn [plus nth_error]. unfold Ms in I. rewrite (nth_error_blocks _ 70 K2 rs k (g * 10 + i) (a, r) E) by lia.
        rewrite (nth_error_blocks _ 10 (K1 a r) FullGroups g i gr EG) by exact I.
        rewrite (map_nth_error _ i (seq 0 Ms) (d := i)); [reflexivity|]. 
        rewrite (nth_error_nth' _ 0) by (rewrite seq_length; exact I). rewrite seq_nth by exact I. reflexivity.
      + rewrite read_row_cells by assumption.
        assert (GN : range_name gr = T gname).
        { do 7 (destruct g as [|g]; [cbn in EG, EN; injection EG as <-; injection EN as <-; reflexivity|]). lia. }
        assert (MN : nth i m_names [] = T mname).
        { unfold Ms in I. do 10 (destruct i as [|i]; [cbn in EM; injection EM as <-; reflexivity|]). lia. }
        rewrite GN, MN. reflexivity.
  Qed.
  (** The first line names the columns. *)
  Theorem C215_titles : forall rs line, nth_error (write_all fmt fmt_int rs) 0 = Some line ->
    csv_cells false line = map T ["Algor"; "TopicCount"; "TrainDesc"; "MRR"; "MAP"; "Perplexity"; "Group"; "M"; "DocCount"; "Precision"; "Recall"]%string.
  Proof. intros rs line H. injection H as <-. reflexivity. Qed.
End Csv.

(** A number of topics with a comma inside it (as in a header "LDA, K=10,a=2")
    moves the cells of its line; missing means are written as numbers, although a
    missing perplexity is left empty. *)
Definition case_results : results := mkRes new_table new_table (-1 # 1) (-1 # 1) (-1 # 1).
Definition sign_fmt (z : Z) : text := if (z <? 0)%Z then T "-" ++ str (Z.to_nat (- z)) else str (Z.to_nat z).
Theorem C215_eleven_cells_refuted : exists line a row, from_file_entry line = Ok a /\
  nth_error (write_all (fun q => sign_fmt (Qnum (Qred q))) sign_fmt [(a, case_results)]) 1 = Some row /\
  length (csv_cells false row) = 12.
Proof. exists (T "LDA, K=10,a=2 x"). do 2 eexists. split; [vm_compute; reflexivity|]. split; vm_compute; reflexivity. Qed.
Theorem C215_missing_means_refuted : exists row,
  nth_error (write_all (fun q => sign_fmt (Qnum (Qred q))) sign_fmt [(lda, case_results)]) 1 = Some row /\
  nth_error (csv_cells false row) 3 = Some (T "-1") /\ nth_error (csv_cells false row) 4 = Some (T "-1") /\
  nth_error (csv_cells false row) 5 = Some [].
Proof. eexists. split; [vm_compute; reflexivity|]. split; [|split]; vm_compute; reflexivity. Qed.
Lemma sign_bare z : bare (sign_fmt z).
Proof.
  assert (D : forall n, bare (str n)) by (intros n; split; intros H; apply (digits_no _ (str n) (str_digits n)) in H; auto; reflexivity).
  unfold sign_fmt. destruct (z <? 0)%Z; [|apply D]. destruct (D (Z.to_nat (- z))) as (A & B).
  split; (intros [H|H]; [discriminate H|contradiction]).
Qed.
Example C215_case : plain_numbers (fun q => sign_fmt (Qnum (Qred q))) sign_fmt /\ bare (a_topics lda) /\ ~ In quote (a_name lda) /\ ~ In quote (a_desc lda) /\
  exists r row, read_all demo_float (part_lines part1 ++ [[]]) = Ok [(lda, r)] /\
    nth_error (write_all (fun q => sign_fmt (Qnum (Qred q))) sign_fmt [(lda, r)]) (1 + (0 * 70 + (2 * 10 + 4))) = Some row /\
    csv_cells false row = map T ["LDA"; "10"; "trained, for a while"; "6"; "7"; "12"; "3->"; "50"; "11"; "3"; "4"]%string.
Proof.
  split; [split; intros; apply sign_bare|]. split; [split; cbn; intuition discriminate|]. split; [cbn; intuition discriminate|].
  split; [cbn; intuition discriminate|]. do 2 eexists. split; [vm_compute; reflexivity|]. split; vm_compute; reflexivity.
Qed.

Print Assumptions C213_read_back.
Print Assumptions C213_no_entries.
Print Assumptions C213_without_map.
Print Assumptions C214_first_fold.
Print Assumptions C213_adjacent_entries_refuted.
Print Assumptions C213_entries_after_missing_map_refuted.
Print Assumptions C214_final_results_refuted.
Print Assumptions C215_rows.
Print Assumptions C215_titles.
Print Assumptions C215_eleven_cells_refuted.
Print Assumptions C215_missing_means_refuted.
