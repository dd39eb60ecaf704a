(** * Facts about the conversion of arXiv abstracts *)
From Coq Require Import Ascii String List ZArith Arith Bool Lia Permutation Sorting.Sorted.
From Verif Require Import Base StrModel StrProps SelProps ReshapeModel ReshapeProofs ArxivModel.
Import ListNotations.
Open Scope nat_scope.
Open Scope list_scope.

(** ** Letters: everything but blanks, commas and dots *)
Definition letter (c : ascii) : bool := negb (is_space c) && negb (Ascii.eqb c ",") && negb (Ascii.eqb c ".").
Definition letters (s : text) : text := filter letter s.
Lemma letters_app a b : letters (a ++ b) = letters a ++ letters b.
Proof. apply filter_app. Qed.
Lemma letters_spaces s : forallb is_space s = true -> letters s = [].
Proof.
  induction s as [|c s IH]; intros H; [reflexivity|]. cbn [forallb letters filter] in *. apply andb_prop in H as [A B].
  unfold letter. rewrite A. cbn [negb andb]. apply IH, B.
Qed.
Lemma letters_strip s : letters (strip s) = letters s.
Proof.
  destruct (strip_parts s) as (pre & post & E & A & B). rewrite E at 2. rewrite !letters_app, (letters_spaces pre A), (letters_spaces post B), app_nil_r. reflexivity.
Qed.
Definition all_letters (l : list text) : text := concat (map letters l).
Lemma split_nonempty c s : exists w ws, split_on c s = w :: ws.
Proof.
  induction s as [|x s (w & ws & IH)]; cbn [split_on]; [eauto|]. destruct (ascii_dec x c); [eauto|]. rewrite IH. eauto.
Qed.
Lemma letters_split c s : letter c = false -> all_letters (split_on c s) = letters s.
Proof.
  intros H. induction s as [|x s IH]; [reflexivity|]. cbn [split_on]. destruct (ascii_dec x c) as [->|D].
  - unfold all_letters, letters in *. cbn [map concat filter app]. rewrite H. exact IH.
  - destruct (split_nonempty c s) as (w & ws & E). rewrite E in *. unfold all_letters, letters in *. cbn [map concat filter] in *.
    rewrite <- IH. destruct (letter x); reflexivity.
Qed.
Lemma letters_join sep l : letters sep = [] -> letters (join_with sep l) = all_letters l.
Proof.
  intros H. induction l as [|a l IH]; [reflexivity|]. destruct l as [|b l]; [unfold all_letters; cbn [join_with map concat]; rewrite app_nil_r; reflexivity|].
  change (join_with sep (a :: b :: l)) with (a ++ sep ++ join_with sep (b :: l)). rewrite !letters_app, H, IH. reflexivity.
Qed.
Lemma all_letters_app a b : all_letters (a ++ b) = all_letters a ++ all_letters b.
Proof. unfold all_letters. rewrite map_app, concat_app. reflexivity. Qed.
Lemma all_letters_one a : all_letters [a] = letters a.
Proof. unfold all_letters. cbn. apply app_nil_r. Qed.

Lemma long_name_letters last prev before :
  Permutation (letters (long_name last prev before)) (all_letters (rev (last :: prev :: before))).
Proof.
  assert (G : forall lst rest, Permutation (letters (match rest with
      | p :: ((_ :: _) as b) =>
        if is_one_of (py_lower p) particles then p ++ T " " ++ lst ++ T ", " ++ join_with (T " ") (rev b)
        else lst ++ T ", " ++ join_with (T " ") (rev rest)
      | _ => lst ++ T ", " ++ join_with (T " ") (rev rest) end)) (all_letters (rev rest) ++ letters lst)).
  { intros lst rest.
    assert (B : Permutation (letters (lst ++ T ", " ++ join_with (T " ") (rev rest))) (all_letters (rev rest) ++ letters lst)).
    { rewrite !letters_app, letters_join by reflexivity. change (letters (T ", ")) with (@nil ascii). cbn [app]. apply Permutation_app_comm. }
    destruct rest as [|p [|b r]]; [exact B|exact B|]. destruct (is_one_of (py_lower p) particles); [|exact B].
    rewrite !letters_app, letters_join by reflexivity. change (letters (T ", ")) with (@nil ascii). change (letters (T " ")) with (@nil ascii).
    change (rev (p :: b :: r)) with (rev (b :: r) ++ [p]). rewrite all_letters_app, all_letters_one. cbn [app].
    rewrite app_assoc. eapply perm_trans; [apply Permutation_app_comm|]. rewrite <- app_assoc. apply Permutation_app_head. reflexivity. }
  unfold long_name. change (rev (last :: prev :: before)) with ((rev before ++ [prev]) ++ [last]).
  destruct (is_one_of (py_lower last) suffixes).
  - eapply perm_trans; [apply (G (prev ++ T " " ++ last) before)|]. rewrite !all_letters_app, !all_letters_one, !letters_app. change (letters (T " ")) with (@nil ascii). cbn [app].
    rewrite app_assoc. reflexivity.
  - eapply perm_trans; [apply (G last (prev :: before))|]. cbn [rev]. rewrite !all_letters_app, !all_letters_one. reflexivity.
Qed.
Lemma author_letters s : Permutation (letters (bibtex_to_acl_author s)) (letters s).
Proof.
  rewrite <- (letters_strip s), <- (letters_split " "%char (strip s) eq_refl). unfold bibtex_to_acl_author.
  destruct (split_on " "%char (strip s)) as [|p [|q [|r ps]]] eqn:E.
  - reflexivity.
  - rewrite all_letters_one, <- (letters_split "."%char p eq_refl).
    destruct (rev (split_on "."%char p)) as [|w [|w' ws]] eqn:R.
    + apply (f_equal (@rev _)) in R. rewrite rev_involutive in R. rewrite R. reflexivity.
    + apply (f_equal (@rev _)) in R. rewrite rev_involutive in R. rewrite R. cbn [rev app]. rewrite all_letters_one. reflexivity.
    + apply (f_equal (@rev _)) in R. rewrite rev_involutive in R. rewrite R. change (rev (w :: w' :: ws)) with (rev (w' :: ws) ++ [w]).
      rewrite all_letters_app, all_letters_one, !letters_app, letters_join by reflexivity. change (letters (T ", ")) with (@nil ascii). change (letters (T ".")) with (@nil ascii).
      rewrite app_nil_r. cbn [app]. apply Permutation_app_comm.
  - rewrite !letters_app. change (letters (T ", ")) with (@nil ascii). cbn [app]. change [p; q] with ([p] ++ [q]).
    rewrite all_letters_app, !all_letters_one. apply Permutation_app_comm.
  - destruct (rev (p :: q :: r :: ps)) as [|last [|prev before]] eqn:R.
    + apply (f_equal (@rev _)) in R. rewrite rev_involutive in R. discriminate R.
    + apply (f_equal (@rev _)) in R. rewrite rev_involutive in R. discriminate R.
    + apply (f_equal (@rev _)) in R. rewrite rev_involutive in R. rewrite R. apply long_name_letters.
Qed.

(** ** Names made of words *)
Definition word (w : text) : Prop := w <> [] /\ Forall (fun c => is_space c = false) w.
Lemma word_no_space w : word w -> ~ In " "%char w.
Proof. intros (_ & F) H. rewrite Forall_forall in F. specialize (F _ H). discriminate F. Qed.
Lemma split_words ws : ws <> [] -> Forall word ws -> split_on " "%char (join_with (T " ") ws) = ws.
Proof.
  intros N F. induction ws as [|w ws IH]; [congruence|]. inversion F as [|? ? W F']; subst. destruct ws as [|v ws].
  - cbn [join_with]. apply split_plain, word_no_space, W.
  - change (join_with (T " ") (w :: v :: ws)) with (w ++ " "%char :: join_with (T " ") (v :: ws)).
    rewrite split_sep by (apply word_no_space, W). rewrite IH by (discriminate || assumption). reflexivity.
Qed.
Lemma strip_ends c a d : is_space c = false -> is_space d = false -> strip (c :: a ++ [d]) = c :: a ++ [d].
Proof.
  intros A B. destruct (C112_strip [] c a d [] eq_refl eq_refl A B) as (E & _). cbn [app] in E. rewrite app_nil_r in E. exact E.
Qed.
Lemma strip_word w : word w -> strip w = w.
Proof.
  intros (N & F). destruct w as [|c w]; [congruence|]. inversion F as [|? ? A F']; subst. destruct w as [|d w] using rev_ind.
  - destruct (C112_strip [] c [] c [] eq_refl eq_refl A A) as (_ & E & _). exact E.
  - clear IHw. apply Forall_app in F' as (_ & D). inversion D; subst. apply strip_ends; assumption.
Qed.
Lemma join_ends ws : ws <> [] -> Forall word ws ->
  exists c t, join_with (T " ") ws = c :: t /\ is_space c = false /\ exists d u, join_with (T " ") ws = u ++ [d] /\ is_space d = false.
Proof.
  intros N F. induction ws as [|w ws IH]; [congruence|]. inversion F as [|? ? W F']; subst. destruct W as (NW & FW).
  destruct w as [|c w]; [congruence|]. inversion FW as [|? ? A FW']; subst.
  destruct ws as [|v ws].
  - exists c, w. split; [reflexivity|]. split; [exact A|]. cbn [join_with]. destruct w as [|d w] using rev_ind.
    + exists c, []. split; [reflexivity|exact A].
    + clear IHw. exists d, (c :: w). split; [reflexivity|]. apply Forall_app in FW' as (_ & D). inversion D; assumption.
  - destruct (IH ltac:(discriminate) F') as (_ & _ & _ & _ & d & u & E & D).
    exists c, (w ++ T " " ++ join_with (T " ") (v :: ws)). split; [reflexivity|]. split; [exact A|].
    change (join_with (T " ") ((c :: w) :: v :: ws)) with ((c :: w) ++ T " " ++ join_with (T " ") (v :: ws)). rewrite E.
    exists d, ((c :: w) ++ T " " ++ u). split; [rewrite <- !app_assoc; reflexivity|exact D].
Qed.
Lemma strip_join ws : Forall word ws -> strip (join_with (T " ") ws) = join_with (T " ") ws.
Proof.
  intros F. destruct ws as [|w ws]; [reflexivity|]. destruct (join_ends (w :: ws) ltac:(discriminate) F) as (c & t & E & A & d & u & E' & D).
  destruct u as [|c' u].
  - rewrite E'. destruct (C112_strip [] d [] d [] eq_refl eq_refl D D) as (_ & X & _). exact X.
  - rewrite E in E' |- *. injection E' as <- ->. apply strip_ends; assumption.
Qed.

(** ** Lines with a colon *)
Definition rstrip (s : text) : text := rev (lstrip (rev s)).
Lemma lstrip_colon k v : lstrip (k ++ ":"%char :: v) = lstrip k ++ ":"%char :: v.
Proof. induction k as [|c k IH]; [reflexivity|]. cbn [app lstrip]. destruct (is_space c); [exact IH|reflexivity]. Qed.
Lemma rstrip_colon k v : rstrip (k ++ ":"%char :: v) = k ++ ":"%char :: rstrip v.
Proof.
  unfold rstrip. rewrite rev_app_distr. cbn [rev]. rewrite <- app_assoc. cbn [app]. rewrite lstrip_colon, rev_app_distr. cbn [rev].
  rewrite rev_involutive, <- app_assoc. reflexivity.
Qed.
Lemma strip_colon k v : strip (k ++ ":"%char :: v) = lstrip k ++ ":"%char :: rstrip v.
Proof. unfold strip. rewrite lstrip_colon. apply rstrip_colon. Qed.
Lemma strip_lstrip s : strip (lstrip s) = strip s.
Proof. unfold strip. rewrite lstrip_idem. reflexivity. Qed.
Lemma lstrip_last s d : is_space d = false -> lstrip (s ++ [d]) = lstrip s ++ [d].
Proof. intros D. induction s as [|c s IH]; cbn [app lstrip]; [rewrite D; reflexivity|]. destruct (is_space c); [exact IH|reflexivity]. Qed.
Lemma lstrip_rev_suffix s x : forallb is_space x = true -> lstrip (rev (s ++ x)) = lstrip (rev s).
Proof.
  intros H. rewrite rev_app_distr. apply lstrip_spaces. rewrite forallb_forall in *. intros y Hy. apply H. rewrite in_rev. exact Hy.
Qed.
Lemma rstrip_spaces_end s x : forallb is_space x = true -> strip (s ++ x) = strip s.
Proof.
  intros H. unfold strip. destruct (lstrip s) as [|c t] eqn:E.
  - apply lstrip_nil in E. rewrite lstrip_spaces by exact E. rewrite (lstrip_all x) by exact H. reflexivity.
  - rewrite lstrip_app by (rewrite E; discriminate). rewrite E, lstrip_rev_suffix by exact H. reflexivity.
Qed.
Lemma strip_rstrip s : strip (rstrip s) = strip s.
Proof.
  destruct (lstrip_suffix (rev s)) as (x & E & F). assert (S : s = rstrip s ++ rev x).
  { unfold rstrip. rewrite <- rev_app_distr, <- E, rev_involutive. reflexivity. }
  rewrite S at 2. symmetry. apply rstrip_spaces_end. rewrite forallb_forall in *. intros y Hy. apply F. rewrite in_rev. exact Hy.
Qed.
Lemma split_once_sep c a b : ~ In c a -> split_once c (a ++ c :: b) = [a; b].
Proof.
  induction a as [|x a IH]; intros H; cbn [app split_once].
  - destruct (ascii_dec c c); [reflexivity|congruence].
  - destruct (ascii_dec x c) as [->|D]; [exfalso; apply H; left; reflexivity|]. rewrite IH by (intros X; apply H; right; exact X). reflexivity.
Qed.
Lemma lstrip_in c s : In c (lstrip s) -> In c s.
Proof. induction s as [|x s IH]; [intros []|]. cbn [lstrip]. destruct (is_space x); intros H; [right; apply IH, H|exact H]. Qed.

(** ** Delimiters of names *)
Lemma span_spec s : exists ws r, span_spaces s = (ws, r) /\ s = ws ++ r /\ forallb is_space ws = true /\ (r = [] \/ exists c t, r = c :: t /\ is_space c = false).
Proof.
  induction s as [|c s (ws & r & E & S & F & R)]; [exists [], []; cbn; auto|]. cbn [span_spaces]. destruct (is_space c) eqn:D.
  - rewrite E. exists (c :: ws), r. cbn [forallb app]. rewrite D, S. rewrite <- S. auto.
  - exists [], (c :: s). repeat split; eauto.
Qed.
Lemma span_app ws r : forallb is_space ws = true -> (r = [] \/ exists c t, r = c :: t /\ is_space c = false) -> span_spaces (ws ++ r) = (ws, r).
Proof.
  intros F R. induction ws as [|c ws IH]; cbn [app span_spaces].
  - destruct R as [->|(c & t & -> & D)]; [reflexivity|]. cbn [span_spaces]. rewrite D. reflexivity.
  - cbn [forallb] in F. apply andb_prop in F as [-> F]. rewrite IH by exact F. reflexivity.
Qed.
