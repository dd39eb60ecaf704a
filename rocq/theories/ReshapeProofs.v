(** * Facts about the reading of a results file *)
From Coq Require Import Ascii String List ZArith QArith Arith Bool Lia.
From Verif Require Import Base EvalModel StrModel StrProps SelProps TableModel TableProps ReshapeModel.
Import ListNotations.
Open Scope nat_scope.
Open Scope list_scope.

Definition nl : text := [ascii_of_nat 10].

(** ** Stripping *)
Lemma lstrip_suffix s : exists pre, s = pre ++ lstrip s /\ forallb is_space pre = true.
Proof.
  induction s as [|c s (pre & E & F)]; [exists []; split; reflexivity|]. cbn [lstrip]. destruct (is_space c) eqn:S.
  - exists (c :: pre). cbn [app forallb]. rewrite S, F. split; [f_equal; exact E|reflexivity].
  - exists []. split; reflexivity.
Qed.
Lemma strip_parts s : exists pre post, s = pre ++ strip s ++ post /\ forallb is_space pre = true /\ forallb is_space post = true.
Proof.
  destruct (lstrip_suffix s) as (pre & E & F). destruct (lstrip_suffix (rev (lstrip s))) as (post & E' & F').
  exists pre, (rev post). split; [|split; [exact F|]].
  - unfold strip. rewrite <- rev_app_distr, <- E', rev_involutive. exact E.
  - rewrite forallb_forall in *. intros x Hx. apply F'. rewrite in_rev. exact Hx.
Qed.
Lemma strip_prefix c s : is_space c = false -> exists post, c :: s = strip (c :: s) ++ post.
Proof.
  intros H. unfold strip. rewrite lstrip_id by exact H. destruct (lstrip_suffix (rev (c :: s))) as (post & E & _).
  exists (rev post). rewrite <- rev_app_distr, <- E, rev_involutive. reflexivity.
Qed.
Lemma lstrip_app s t : lstrip s <> [] -> lstrip (s ++ t) = lstrip s ++ t.
Proof.
  induction s as [|c s IH]; intros N; [cbn in N; congruence|]. cbn [lstrip app] in *. destruct (is_space c); [apply IH, N|reflexivity].
Qed.
Lemma lstrip_nil s : lstrip s = [] -> forallb is_space s = true.
Proof. induction s as [|c s IH]; intros H; [reflexivity|]. cbn [lstrip forallb] in *. destruct (is_space c); [exact (IH H)|discriminate]. Qed.
Lemma strip_nl l : strip (l ++ nl) = strip l.
Proof.
  unfold strip. destruct (lstrip l) as [|c s] eqn:E.
  - apply lstrip_nil in E. rewrite lstrip_spaces by exact E. reflexivity.
  - rewrite lstrip_app by (rewrite E; discriminate). rewrite E, rev_app_distr. reflexivity.
Qed.
Lemma lstrip_head s : lstrip s = [] \/ exists c t, lstrip s = c :: t /\ is_space c = false.
Proof.
  induction s as [|c s IH]; [left; reflexivity|]. cbn [lstrip]. destruct (is_space c) eqn:E; [exact IH|right; eauto].
Qed.
Lemma lstrip_idem s : lstrip (lstrip s) = lstrip s.
Proof. destruct (lstrip_head s) as [->|(c & t & -> & E)]; [reflexivity|apply lstrip_id, E]. Qed.
Lemma strip_head s : strip s = [] \/ exists c t, strip s = c :: t /\ is_space c = false.
Proof.
  destruct (lstrip_head s) as [E|(c & t & E & H)].
  - left. unfold strip. rewrite E. reflexivity.
  - right. destruct (strip_prefix c t H) as (post & P). unfold strip in P. rewrite lstrip_id in P by exact H. unfold strip. rewrite E.
    destruct (rev (lstrip (rev (c :: t)))) as [|d u] eqn:R; [exfalso|injection P as <- P; eauto].
    assert (Z : lstrip (rev (c :: t)) = []) by (rewrite <- (rev_involutive (lstrip _)), R; reflexivity).
    apply lstrip_nil in Z. rewrite forallb_forall in Z. rewrite (Z c) in H; [discriminate|]. apply -> in_rev. left. reflexivity.
Qed.
Lemma strip_idem s : strip (strip s) = strip s.
Proof.
  destruct (strip_head s) as [->|(c & t & E & H)]; [reflexivity|]. rewrite E. unfold strip at 1. rewrite lstrip_id by exact H.
  assert (X : lstrip (rev (c :: t)) = rev (c :: t)); [|rewrite X, rev_involutive; reflexivity].
  rewrite <- E. unfold strip. rewrite rev_involutive. apply lstrip_idem.
Qed.

(** ** Prefixes *)
Lemma starts_spec p s : starts p s = true <-> exists t, s = p ++ t.
Proof.
  unfold starts. rewrite teqb_eq. split.
  - intros H. exists (skipn (length p) s). rewrite <- H at 1. symmetry. apply firstn_skipn.
  - intros (t & ->). rewrite firstn_app, Nat.sub_diag, firstn_all, firstn_O. apply app_nil_r.
Qed.
Lemma starts_false p s : starts p s = false <-> ~ exists t, s = p ++ t.
Proof. rewrite <- starts_spec. destruct (starts p s); intuition congruence. Qed.
Lemma starts_app p t : starts p (p ++ t) = true.
Proof. apply starts_spec. eauto. Qed.
Lemma skip_prefix (p t : text) : skipn (length p) (p ++ t) = t.
Proof. rewrite skipn_app, Nat.sub_diag, skipn_all. reflexivity. Qed.

(** ** Scanning *)
Lemma nl_cons l : exists c s, l ++ nl = c :: s.
Proof. destruct l as [|c l]; unfold nl; cbn [app]; do 2 eexists; reflexivity. Qed.
Definition first_line (file : list text) : text := fst (readline file).
Definition other_lines (file : list text) : list text := snd (readline file).
Lemma scan_line hit stop l file : scan hit stop (l ++ nl) file =
  if hit (strip l) then Hit (strip l) file else if stop (strip l) then Stop (strip l) file
  else scan hit stop (first_line file) (other_lines file).
Proof.
  destruct (nl_cons l) as (c & s & E). destruct file as [|x r]; unfold first_line, other_lines; cbn [readline fst snd];
    rewrite E; cbn [scan]; rewrite <- E, strip_nl; reflexivity.
Qed.
Lemma scan_noise hit stop noise x rest :
  Forall (fun l => hit (strip l) = false /\ stop (strip l) = false) noise ->
  scan hit stop (first_line (noise ++ x :: rest)) (other_lines (noise ++ x :: rest)) = scan hit stop (x ++ nl) rest.
Proof.
  induction noise as [|l noise IH]; intros F; [reflexivity|]. inversion F as [|? ? (A & B) F']; subst.
  change (first_line ((l :: noise) ++ x :: rest)) with (l ++ nl).
  change (other_lines ((l :: noise) ++ x :: rest)) with (noise ++ x :: rest). rewrite scan_line, A, B. apply IH, F'.
Qed.
Lemma scan_stripped hit stop s file : s <> [] -> hit (strip s) = true -> scan hit stop s file = Hit (strip s) file.
Proof. intros N H. destruct s; [congruence|]. destruct file; cbn [scan]; rewrite H; reflexivity. Qed.

(** ** Blank lines and comments *)
Definition ignorable (l : text) : Prop := strip l = [] \/ exists t, strip l = T "#" ++ t.
Lemma ignorable_spec l : ignorable l <-> (teqb (strip l) [] || starts (T "#") (strip l)) = true.
Proof. rewrite orb_true_iff, teqb_eq, starts_spec. reflexivity. Qed.
Lemma skip_line l file : skip_from (l ++ nl) file =
  if teqb (strip l) [] || starts (T "#") (strip l) then skip_from (first_line file) (other_lines file) else (l ++ nl, file).
Proof.
  destruct (nl_cons l) as (c & s & E). destruct file as [|x r]; unfold first_line, other_lines; cbn [readline fst snd];
    rewrite E; cbn [skip_from]; rewrite <- E, strip_nl; destruct (teqb (strip l) [] || starts (T "#") (strip l)); reflexivity.
Qed.
Lemma skip_lead lead x rest : Forall ignorable lead -> ~ ignorable x ->
  skip_from (first_line (lead ++ x :: rest)) (other_lines (lead ++ x :: rest)) = (x ++ nl, rest).
Proof.
  induction lead as [|l lead IH]; intros F N.
  - change (skip_from (x ++ nl) rest = (x ++ nl, rest)). rewrite skip_line. rewrite ignorable_spec in N.
    destruct (teqb (strip x) [] || starts (T "#") (strip x)); [congruence|reflexivity].
  - inversion F as [|? ? A F']; subst. change (skip_from (l ++ nl) (lead ++ x :: rest) = (x ++ nl, rest)).
    rewrite skip_line. rewrite ignorable_spec in A. rewrite A. apply IH; assumption.
Qed.
Lemma skip_tail tail : Forall ignorable tail -> skip_from (first_line tail) (other_lines tail) = ([], []).
Proof.
  induction tail as [|l tail IH]; intros F; [reflexivity|]. inversion F as [|? ? A F']; subst.
  change (skip_from (l ++ nl) tail = ([], [])). rewrite skip_line. rewrite ignorable_spec in A. rewrite A. apply IH, F'.
Qed.
(** What is skipped is skipped by the scan that follows, too. *)
Lemma skip_scan hit stop file :
  (forall s, (s = [] \/ exists t, s = T "#" ++ t) -> hit s = false /\ stop s = false) ->
  fst (skip_from (first_line file) (other_lines file)) <> [] ->
  scan hit stop (fst (skip_from (first_line file) (other_lines file))) (snd (skip_from (first_line file) (other_lines file))) =
  scan hit stop (first_line file) (other_lines file).
Proof.
  intros HS. induction file as [|l file IH]; intros N; [reflexivity|].
  change (first_line (l :: file)) with (l ++ nl) in *. change (other_lines (l :: file)) with file in *.
  rewrite skip_line in *. destruct (teqb (strip l) [] || starts (T "#") (strip l)) eqn:G; [|reflexivity].
  rewrite IH by exact N. rewrite (scan_line hit stop l file). apply ignorable_spec in G. destruct (HS (strip l) G) as [-> ->]. reflexivity.
Qed.

(** ** Characters taken off a name *)
Lemma drop_none p s : (forall c t, s = c :: t -> p c = false) -> drop p s = s.
Proof. intros H. destruct s as [|c t]; [reflexivity|]. cbn [drop]. rewrite (H c t eq_refl). reflexivity. Qed.
Lemma drop_all p pre s : forallb p pre = true -> drop p (pre ++ s) = drop p s.
Proof. induction pre as [|c pre IH]; intros H; [reflexivity|]. cbn [forallb app drop] in *. apply andb_prop in H as [-> H]. apply IH, H. Qed.
Definition ends_ok (p : ascii -> bool) (s : text) : Prop :=
  (forall c t, s = c :: t -> p c = false) /\ (forall c t, s = t ++ [c] -> p c = false).
Lemma strip_by_spec p pre s post : ends_ok p s -> s <> [] -> forallb p pre = true -> forallb p post = true ->
  strip_by p (pre ++ s ++ post) = s.
Proof.
  intros (A & B) N P1 P2. unfold strip_by. rewrite drop_all by exact P1.
  assert (D : drop p (s ++ post) = s ++ post).
  { apply drop_none. intros c t E. destruct s as [|d s]; [congruence|]. injection E as -> _. apply (A c s eq_refl). }
  rewrite D, rev_app_distr, drop_all.
  - rewrite drop_none; [apply rev_involutive|]. intros c t E. apply (B c (rev t)).
    rewrite <- (rev_involutive s), E. reflexivity.
  - rewrite forallb_forall in *. intros x Hx. apply P2. rewrite in_rev. exact Hx.
Qed.
Lemma join_split c s : join_with [c] (split_on c s) = s.
Proof.
  induction s as [|x s IH]; [reflexivity|]. cbn [split_on]. destruct (ascii_dec x c) as [->|D].
  - destruct (split_on c s) as [|w ws] eqn:E; [destruct s as [|y s]; cbn in E; [discriminate|destruct (ascii_dec y c); [discriminate|destruct (split_on c s); discriminate]]|].
    change (join_with [c] ([] :: w :: ws)) with ([] ++ [c] ++ join_with [c] (w :: ws)). rewrite IH. reflexivity.
  - destruct (split_on c s) as [|w ws] eqn:E; [destruct s as [|y s]; cbn in E; [discriminate|destruct (ascii_dec y c); [discriminate|destruct (split_on c s); discriminate]]|].
    destruct ws as [|w' ws]; cbn [join_with] in *; [rewrite IH; reflexivity|].
    cbn [app]. f_equal. exact IH.
Qed.
