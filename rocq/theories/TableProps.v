(** * Tables of results (C59, C113). *)
From Coq Require Import Ascii String DecimalString DecimalNat List ZArith QArith Qfield Lqa Arith Bool Lia.
From Verif Require Import Base EvalModel EvalProofs StrModel StrProps SelModel SelProps TableModel.
Import ListNotations.
Open Scope nat_scope.
Open Scope list_scope.

(** ** C59: the specification of a weighted mean *)
Definition docs_of (t : table) (srcs : list range) : Q := fold_right (fun s a => e_docs (t s) + a)%Q 0%Q srcs.
Definition weighted_of (t : table) (srcs : list range) (m : nat) : Q :=
  fold_right (fun s a => nth m (e_vals (t s)) 0 * e_docs (t s) + a)%Q 0%Q srcs.

Lemma put_same r e t : put r e t r = e.
Proof. unfold put. destruct (range_eq_dec r r); congruence. Qed.
Lemma put_other r e t x : x <> r -> put r e t x = t x.
Proof. intros H. unfold put. destruct (range_eq_dec x r); congruence. Qed.

Lemma nth_zip (f : Q -> Q -> Q) a b m : length a = length b -> m < length a ->
  nth m (map (fun '(x, y) => f x y) (combine a b)) 0%Q = f (nth m a 0%Q) (nth m b 0%Q).
Proof.
  revert b m. induction a as [|x a IH]; intros [|y b] [|m] L H; cbn in *; try lia; try reflexivity. apply IH; lia.
Qed.

Lemma accumulate_all dst srcs : forall t, ~ In dst srcs -> (forall r, length (e_vals (t r)) = Ms) ->
  let t' := fold_left (fun t src => accumulate dst src t) srcs t in
  (forall r, length (e_vals (t' r)) = Ms) /\
  (forall r, r <> dst -> t' r = t r) /\
  (e_docs (t' dst) == e_docs (t dst) + docs_of t srcs)%Q /\
  (forall m, m < Ms -> (nth m (e_vals (t' dst)) 0 == nth m (e_vals (t dst)) 0 + weighted_of t srcs m)%Q).
Proof.
  induction srcs as [|s srcs IH]; intros t N L; cbn [fold_left docs_of weighted_of fold_right].
  - split; [exact L|]. split; [reflexivity|]. split; [unfold docs_of; cbn; ring|]. intros m Hm. unfold weighted_of. cbn. ring.
  - assert (Ds : s <> dst) by (intros ->; apply N; left; reflexivity).
    assert (N' : ~ In dst srcs) by (intros X; apply N; right; exact X).
    assert (L' : forall r, length (e_vals (accumulate dst s t r)) = Ms).
    { intros r. unfold accumulate. destruct (range_eq_dec r dst) as [->|D]; [|rewrite put_other by exact D; apply L].
      rewrite put_same. cbn [e_vals]. rewrite map_length, combine_length, !L. apply Nat.min_id. }
    assert (O : forall r, r <> dst -> accumulate dst s t r = t r) by (intros r D; apply put_other, D).
    destruct (IH (accumulate dst s t) N' L') as (A & B & C & E).
    assert (F1 : docs_of (accumulate dst s t) srcs = docs_of t srcs).
    { unfold docs_of. clear - O N'. induction srcs as [|x l IHl]; [reflexivity|]. cbn [fold_right].
      rewrite O by (intros ->; apply N'; left; reflexivity). rewrite IHl; [reflexivity|]. intros X. apply N'. right. exact X. }
    assert (F2 : forall m, weighted_of (accumulate dst s t) srcs m = weighted_of t srcs m).
    { intros m. unfold weighted_of. clear - O N'. induction srcs as [|x l IHl]; [reflexivity|]. cbn [fold_right].
      rewrite O by (intros ->; apply N'; left; reflexivity). rewrite IHl; [reflexivity|]. intros X. apply N'. right. exact X. }
    split; [exact A|]. split; [intros r D; rewrite B, O by exact D; reflexivity|]. split.
    + rewrite C, F1. unfold accumulate. rewrite put_same. cbn [e_docs]. unfold docs_of. cbn [fold_right]. ring.
    + intros m Hm. rewrite (E m Hm), F2. unfold accumulate. rewrite put_same. cbn [e_vals].
      rewrite (nth_zip (fun x y => x + y * e_docs (t s))%Q) by (rewrite !L; try reflexivity; exact Hm).
      unfold weighted_of. cbn [fold_right]. ring.
Qed.

Definition fresh (t : table) (dst : range) : Prop := t dst = mkE 0 (repeat 0%Q Ms).

(** Rolled-up groups hold the number of documents of their parts and the
    document-weighted means; the other groups are left alone. *)
Theorem C59_weighted_means : forall t dst srcs, ~ In dst srcs -> (forall r, length (e_vals (t r)) = Ms) -> fresh t dst ->
  ~ (docs_of t srcs == 0)%Q ->
  exists t', roll_up t dst srcs = Ok t' /\ (forall r, r <> dst -> t' r = t r) /\
    (e_docs (t' dst) == docs_of t srcs)%Q /\ length (e_vals (t' dst)) = Ms /\
    (forall m, m < Ms -> (nth m (e_vals (t' dst)) 0 == weighted_of t srcs m / docs_of t srcs)%Q).
Proof.
  intros t dst srcs N L F Z. destruct (accumulate_all dst srcs t N L) as (A & B & C & E).
  unfold roll_up, divide. set (t1 := fold_left (fun (t : table) (src : range) => accumulate dst src t) srcs t) in *. rewrite F in C, E. cbn [e_docs e_vals] in C, E.
  assert (C' : (e_docs (t1 dst) == docs_of t srcs)%Q) by (rewrite C; ring).
  destruct (Qeq_bool (e_docs (t1 dst)) 0) eqn:Q0.
  { apply Qeq_bool_iff in Q0. exfalso. apply Z. rewrite <- C'. exact Q0. }
  eexists. split; [reflexivity|]. split; [intros r D; rewrite put_other by exact D; apply B, D|].
  rewrite put_same. cbn [e_docs e_vals]. split; [exact C'|]. split; [rewrite map_length; apply A|].
  intros m Hm. rewrite (nth_indep _ 0%Q (0 / e_docs (t1 dst))%Q) by (rewrite map_length, A; exact Hm).
  rewrite (map_nth (fun x => x / e_docs (t1 dst))%Q). rewrite (E m Hm), C'.
  assert (R0 : nth m (repeat 0%Q Ms) 0%Q = 0%Q).
  { clear. generalize Ms. intros n. revert m. induction n as [|n IH]; intros [|m]; cbn; auto. }
  rewrite R0. field. exact Z.
Qed.

(** Without documents the division fails. *)
Theorem C59_no_documents : forall t dst srcs, ~ In dst srcs -> (forall r, length (e_vals (t r)) = Ms) -> fresh t dst ->
  (docs_of t srcs == 0)%Q -> roll_up t dst srcs = Raise ZeroDivisionError.
Proof.
  intros t dst srcs N L F Z. destruct (accumulate_all dst srcs t N L) as (A & B & C & E).
  unfold roll_up, divide. set (t1 := fold_left (fun (t : table) (src : range) => accumulate dst src t) srcs t) in *. rewrite F in C. cbn [e_docs] in C.
  destruct (Qeq_bool (e_docs (t1 dst)) 0) eqn:Q0; [reflexivity|]. apply Qeq_bool_neq in Q0. exfalso. apply Q0.
  rewrite C, Z. ring.
Qed.

(** The means lie between the bounds of the parts that have documents. *)
Theorem C59_between : forall t dst srcs t' m lo hi, ~ In dst srcs -> (forall r, length (e_vals (t r)) = Ms) -> fresh t dst ->
  (forall s, In s srcs -> 0 <= e_docs (t s))%Q -> (0 < docs_of t srcs)%Q -> m < Ms ->
  (forall s, In s srcs -> ~ e_docs (t s) == 0 -> lo <= nth m (e_vals (t s)) 0 <= hi)%Q ->
  roll_up t dst srcs = Ok t' -> (lo <= nth m (e_vals (t' dst)) 0 <= hi)%Q.
Proof.
  intros t dst srcs t' m lo hi N L F P D Hm Hb H.
  destruct (C59_weighted_means t dst srcs N L F) as (t1 & E & _ & _ & _ & V); [lra|].
  rewrite E in H. injection H as <-. rewrite (V m Hm).
  assert (W : (lo * docs_of t srcs <= weighted_of t srcs m <= hi * docs_of t srcs)%Q).
  { clear - P Hb. unfold docs_of, weighted_of. induction srcs as [|s srcs IH]; cbn [fold_right]; [lra|].
    assert (IH' : (lo * fold_right (fun s a => e_docs (t s) + a)%Q 0%Q srcs <= fold_right (fun s a => nth m (e_vals (t s)) 0 * e_docs (t s) + a)%Q 0%Q srcs <=
                  hi * fold_right (fun s a => e_docs (t s) + a)%Q 0%Q srcs)%Q).
    { apply IH; intros x Hx; [apply P|apply Hb]; right; exact Hx. }
    assert (S : (lo * e_docs (t s) <= nth m (e_vals (t s)) 0 * e_docs (t s) <= hi * e_docs (t s))%Q).
    { pose proof (P s (or_introl eq_refl)) as P0. destruct (Qeq_dec (e_docs (t s)) 0) as [Z|Z]; [rewrite Z; lra|].
      destruct (Hb s (or_introl eq_refl) Z) as [B1 B2]. split; apply Qmult_le_compat_r; assumption. }
    lra. }
  destruct W as [W1 W2]. split; [apply Qle_shift_div_l|apply Qle_shift_div_r]; assumption.
Qed.

Example C59_case :
  let t := put Range3_5 (mkE 30 (repeat (1#2)%Q 10)) (put Range5_10 (mkE 10 (repeat 1%Q 10)) new_table) in
  exists t', roll_up t Range3_up [Range3_5; Range5_10; Range10_up] = Ok t' /\
    (e_docs (t' Range3_up) == 40)%Q /\ (nth 4 (e_vals (t' Range3_up)) 0 == 5 # 8)%Q.
Proof. eexists. split; [reflexivity|]. split; reflexivity. Qed.

(** ** C113: a table is read back as printed *)
Section RoundTrip.
  Context (fmt_group : group -> list ascii) (fmt_count : nat -> list ascii) (fmt_val : Q -> list ascii)
          (heading rule : list ascii) (to_float : list ascii -> res Q).
  (** Formatted numbers have no bars; reading one between blanks gives the number
      printed, up to the digits printed. *)
  Context (rnd : Q -> Q).
  Definition bar : ascii := "|"%char.
  Definition formats : Prop :=
    (forall g, ~ In bar (fmt_group g)) /\
    (forall n, ~ In bar (fmt_count n) /\ to_float (strip (T " " ++ fmt_count n ++ T " ")) = Ok (inject_Z (Z.of_nat n))) /\
    (forall q, ~ In bar (fmt_val q) /\ to_float (strip (T " " ++ fmt_val q ++ T " ")) = Ok (rnd q)).

  Notation print_row := (print_row fmt_group fmt_count fmt_val).

  Lemma not_in_pad s : ~ In bar s -> ~ In bar (T " " ++ s ++ T " ").
  Proof. intros H X. cbn in X. destruct X as [X|X]; [discriminate|]. apply in_app_or in X as [X|[X|[]]]; [contradiction|discriminate]. Qed.

  (** The columns of a row. *)
  Lemma join_bar_split vals : vals <> [] -> (forall q, ~ In bar (fmt_val q)) ->
    split_on bar (T " " ++ join_bar (map fmt_val vals) ++ T " |") = map (fun q => T " " ++ fmt_val q ++ T " ") vals ++ [[]].
  Proof.
    intros N H. induction vals as [|q vals IH]; [congruence|]. destruct vals as [|q' vals].
    - cbn [map join_bar app]. change (T " " ++ fmt_val q ++ T " |") with (T " " ++ fmt_val q ++ (T " " ++ [bar])).
      rewrite (app_assoc (fmt_val q)), app_assoc. rewrite (split_sep bar _ []) by (apply not_in_pad, H). reflexivity.
    - change (join_bar (map fmt_val (q :: q' :: vals))) with (fmt_val q ++ T " | " ++ join_bar (map fmt_val (q' :: vals))).
      set (rest := join_bar (map fmt_val (q' :: vals))) in *.
      replace (T " " ++ (fmt_val q ++ T " | " ++ rest) ++ T " |") with ((T " " ++ fmt_val q ++ T " ") ++ bar :: (T " " ++ rest ++ T " |"))
        by (rewrite <- !app_assoc; reflexivity).
      rewrite split_sep by (apply not_in_pad, H). rewrite IH by discriminate. reflexivity.
  Qed.

  Lemma row_columns g n vals : formats -> vals <> [] ->
    split_on bar (print_row g n vals) =
    [] :: (T " " ++ fmt_group g ++ T " ") :: (T " " ++ fmt_count n ++ T " ") :: map (fun q => T " " ++ fmt_val q ++ T " ") vals ++ [[]].
  Proof.
    intros (G & C & V) N. unfold TableModel.print_row.
    replace (T "| " ++ fmt_group g ++ T " " ++ T "| " ++ fmt_count n ++ T " " ++ T "| " ++ join_bar (map fmt_val vals) ++ T " |")
      with ([] ++ bar :: (T " " ++ fmt_group g ++ T " ") ++ bar :: (T " " ++ fmt_count n ++ T " ") ++ bar :: (T " " ++ join_bar (map fmt_val vals) ++ T " |"))
      by (rewrite <- !app_assoc; reflexivity).
    rewrite split_sep by (intros []). rewrite split_sep by (apply not_in_pad, G). rewrite split_sep by (apply not_in_pad, C).
    rewrite join_bar_split; [reflexivity|exact N|apply V].
  Qed.

  (** A row starts and ends with a bar, so nothing but the line feed is stripped. *)
  Lemma strip_row g n vals : strip (print_row g n vals ++ [ascii_of_nat 10]) = print_row g n vals.
  Proof.
    unfold TableModel.print_row. set (mid := T " " ++ fmt_group g ++ T " " ++ T "| " ++ fmt_count n ++ T " " ++ T "| " ++ join_bar (map fmt_val vals) ++ T " ").
    assert (E : T "| " ++ fmt_group g ++ T " " ++ T "| " ++ fmt_count n ++ T " " ++ T "| " ++ join_bar (map fmt_val vals) ++ T " |" = bar :: mid ++ [bar]).
    { unfold mid. rewrite <- !app_assoc. reflexivity. }
    rewrite E. destruct (C112_strip [] bar mid bar [ascii_of_nat 10]) as [S _]; try reflexivity. exact S.
  Qed.

  Lemma read_row_spec g n vals : formats -> length vals = Ms ->
    read_row to_float (print_row g n vals ++ [ascii_of_nat 10]) = Ok (mkE (inject_Z (Z.of_nat n)) (map rnd vals)).
  Proof.
    intros F L. unfold read_row. rewrite strip_row. change "|"%char with bar. rewrite row_columns by (exact F || (destruct vals; discriminate)).
    destruct F as (G & C & V). destruct vals as [|v0 [|v1 [|v2 [|v3 [|v4 [|v5 [|v6 [|v7 [|v8 [|v9 [|]]]]]]]]]]]; try discriminate L.
    cbn [map app seq Ms plus mapM get_ nth_error bind]. rewrite (proj2 (C n)). rewrite !(fun q => proj2 (V q)). reflexivity.
  Qed.

  (** The groups of the evaluations (lines 648, 899, 1005, 1113) and what
      mean_prec_rec_at adds to them. *)
  Definition eval_groups : list group := [(0, 3); (3, 5); (5, 10); (10, 1000); (-1, -1)]%Z.
  Definition label (r : range) : option group :=
    match r with
    | All => Some (-1, -1) | Range0_3 => Some (0, 3) | Range3_5 => Some (3, 5) | Range5_10 => Some (5, 10)
    | Range10_up => Some (10, 1000) | Range3_up | Range5_up => None
    end%Z.

  (** Printing a table and reading it gives every group its own numbers, and the
      two rolled-up groups their weighted means. *)
  Theorem C113_read_back : forall title scores counts lines more,
    formats -> map fst scores = eval_groups ->
    (forall g v, lookup g scores = Some v -> length v = Ms) ->
    (forall g, In g eval_groups -> lookup g counts <> None) ->
    (forall a b, lookup (5, 10)%Z counts = Some a -> lookup (10, 1000)%Z counts = Some b -> a + b <> 0) ->
    print_table fmt_group fmt_count fmt_val heading rule title scores counts = Ok lines ->
    exists t, read_table to_float (tl lines ++ more) = Ok (t, fst (readline more), snd (readline more)) /\
      (forall r g, label r = Some g -> exists n v, lookup g counts = Some n /\ lookup g scores = Some v /\
          t r = mkE (inject_Z (Z.of_nat n)) (map rnd v)) /\
      (e_docs (t Range3_up) == docs_of t [Range3_5; Range5_10; Range10_up])%Q /\
      (e_docs (t Range5_up) == docs_of t [Range5_10; Range10_up])%Q /\
      (forall m, m < Ms ->
         (nth m (e_vals (t Range3_up)) 0 == weighted_of t [Range3_5; Range5_10; Range10_up] m / docs_of t [Range3_5; Range5_10; Range10_up])%Q /\
         (nth m (e_vals (t Range5_up)) 0 == weighted_of t [Range5_10; Range10_up] m / docs_of t [Range5_10; Range10_up])%Q).
  Proof.
    intros title scores counts lines more F K LV KC ND HP. unfold print_table in HP. rewrite K in HP.
    change (gsort eval_groups) with [(-1, -1); (0, 3); (3, 5); (5, 10); (10, 1000)]%Z in HP.
    assert (LK : forall g, In g eval_groups -> exists v, lookup g scores = Some v).
    { rewrite <- K. clear. induction scores as [|[h a] s IH]; intros g Hg; [destruct Hg|]. cbn [lookup].
      destruct (geqb g h) eqn:E; [eexists; reflexivity|]. destruct Hg as [<-|Hg]; [|apply IH, Hg].
      unfold geqb in E. cbn [fst] in E. rewrite !Z.eqb_refl in E. discriminate. }
    assert (X : forall g, In g eval_groups -> exists n v, lookup g counts = Some n /\ lookup g scores = Some v /\ length v = Ms).
    { intros g Hg. destruct (LK g Hg) as (v & Hv). pose proof (KC g Hg) as Hc. destruct (lookup g counts) as [n|]; [|congruence].
      exists n, v. split; [reflexivity|]. split; [exact Hv|]. apply (LV g v Hv). }
    destruct (X (-1, -1)%Z) as (n0 & v0 & C0 & S0 & L0); [cbn; tauto|].
    destruct (X (0, 3)%Z) as (n1 & v1 & C1 & S1 & L1); [cbn; tauto|].
    destruct (X (3, 5)%Z) as (n2 & v2 & C2 & S2 & L2); [cbn; tauto|].
    destruct (X (5, 10)%Z) as (n3 & v3 & C3 & S3 & L3); [cbn; tauto|].
    destruct (X (10, 1000)%Z) as (n4 & v4 & C4 & S4 & L4); [cbn; tauto|].
    cbn [mapM] in HP. unfold get_key in HP. rewrite C0, S0, C1, S1, C2, S2, C3, S3, C4, S4 in HP. cbn [bind] in HP.
    injection HP as <-. cbn [tl app]. unfold read_table. cbn [readline snd FileGroups read_rows].
    rewrite !read_row_spec by assumption. cbn [bind read_rows readline].
    set (e0 := mkE (inject_Z (Z.of_nat n0)) (map rnd v0)). set (e1 := mkE (inject_Z (Z.of_nat n1)) (map rnd v1)).
    set (e2 := mkE (inject_Z (Z.of_nat n2)) (map rnd v2)). set (e3 := mkE (inject_Z (Z.of_nat n3)) (map rnd v3)).
    set (e4 := mkE (inject_Z (Z.of_nat n4)) (map rnd v4)).
    set (t0 := put Range10_up e4 (put Range5_10 e3 (put Range3_5 e2 (put Range0_3 e1 (put All e0 new_table))))).
    assert (T0 : t0 All = e0 /\ t0 Range0_3 = e1 /\ t0 Range3_5 = e2 /\ t0 Range5_10 = e3 /\ t0 Range10_up = e4 /\
                 fresh t0 Range3_up /\ fresh t0 Range5_up) by (repeat split).
    destruct T0 as (Ta & Tb & Tc & Td & Te & F3 & F5).
    assert (LL : forall r, length (e_vals (t0 r)) = Ms).
    { assert (LR : forall v, length v = Ms -> length (map rnd v) = Ms) by (intros v H; rewrite map_length; exact H).
      intros []; cbn; try (apply LR; assumption); reflexivity. }
    clearbody t0.
    pose proof (ND n3 n4 C3 C4) as NZ.
    assert (NN : forall n, (0 <= inject_Z (Z.of_nat n))%Q) by (intros n; change 0%Q with (inject_Z 0); rewrite <- Zle_Qle; lia).
    assert (Pos : (0 < inject_Z (Z.of_nat n3) + inject_Z (Z.of_nat n4))%Q).
    { rewrite <- inject_Z_plus. change 0%Q with (inject_Z 0). rewrite <- Zlt_Qlt. lia. }
    destruct (C59_weighted_means t0 Range3_up [Range3_5; Range5_10; Range10_up]) as (t1 & E1 & O1 & D1 & LL1 & V1); auto.
    { cbn. intuition discriminate. }
    { unfold docs_of. cbn [fold_right]. rewrite Tc, Td, Te. unfold e2, e3, e4. cbn [e_docs]. pose proof (NN n2). intros Z0. lra. }
    rewrite E1. cbn [bind].
    assert (F5' : fresh t1 Range5_up) by (unfold fresh; rewrite O1 by discriminate; exact F5).
    destruct (C59_weighted_means t1 Range5_up [Range5_10; Range10_up]) as (t2 & E2 & O2 & D2 & LL2 & V2); auto.
    { cbn. intuition discriminate. }
    { intros r. destruct (range_eq_dec r Range3_up) as [->|D]; [exact LL1|]. rewrite O1 by exact D. apply LL. }
    { unfold docs_of. cbn [fold_right]. rewrite !O1 by discriminate. rewrite Td, Te. unfold e3, e4. cbn [e_docs]. intros Z0. lra. }
    rewrite E2. cbn [bind]. exists t2. split; [destruct more; reflexivity|]. split; [|split; [|split]].
    - intros [] g Hl; cbn in Hl; try discriminate Hl; injection Hl as <-; rewrite O2 by discriminate; rewrite O1 by discriminate; eauto.
    - rewrite O2 by discriminate. rewrite D1. unfold docs_of. cbn [fold_right]. rewrite !O2 by discriminate. rewrite !O1 by discriminate. reflexivity.
    - rewrite D2. unfold docs_of. cbn [fold_right]. rewrite !O2 by discriminate. reflexivity.
    - intros m Hm. split.
      + rewrite O2 by discriminate. rewrite (V1 m Hm). unfold docs_of, weighted_of. cbn [fold_right].
        rewrite !O2 by discriminate. rewrite !O1 by discriminate. reflexivity.
      + rewrite (V2 m Hm). unfold docs_of, weighted_of. cbn [fold_right]. rewrite !O2 by discriminate. reflexivity.
  Qed.

  (** A table without documents of five or more links cannot be read. *)
  Theorem C113_no_large_documents : forall title scores counts lines more a b,
    formats -> map fst scores = eval_groups ->
    (forall g v, lookup g scores = Some v -> length v = Ms) ->
    (forall g, In g eval_groups -> lookup g counts <> None) ->
    lookup (5, 10)%Z counts = Some a -> lookup (10, 1000)%Z counts = Some b -> a + b = 0 ->
    print_table fmt_group fmt_count fmt_val heading rule title scores counts = Ok lines ->
    read_table to_float (tl lines ++ more) = Raise ZeroDivisionError.
  Proof.
    intros title scores counts lines more a b F K LV KC Ha Hb AB HP. unfold print_table in HP. rewrite K in HP.
    change (gsort eval_groups) with [(-1, -1); (0, 3); (3, 5); (5, 10); (10, 1000)]%Z in HP.
    assert (LK : forall g, In g eval_groups -> exists v, lookup g scores = Some v).
    { rewrite <- K. clear. induction scores as [|[h x] s IH]; intros g Hg; [destruct Hg|]. cbn [lookup].
      destruct (geqb g h) eqn:E; [eexists; reflexivity|]. destruct Hg as [<-|Hg]; [|apply IH, Hg].
      unfold geqb in E. cbn [fst] in E. rewrite !Z.eqb_refl in E. discriminate. }
    assert (X : forall g, In g eval_groups -> exists n v, lookup g counts = Some n /\ lookup g scores = Some v /\ length v = Ms).
    { intros g Hg. destruct (LK g Hg) as (v & Hv). pose proof (KC g Hg) as Hc. destruct (lookup g counts) as [n|]; [|congruence].
      exists n, v. split; [reflexivity|]. split; [exact Hv|]. apply (LV g v Hv). }
    destruct (X (-1, -1)%Z) as (n0 & v0 & C0 & S0 & L0); [cbn; tauto|].
    destruct (X (0, 3)%Z) as (n1 & v1 & C1 & S1 & L1); [cbn; tauto|].
    destruct (X (3, 5)%Z) as (n2 & v2 & C2 & S2 & L2); [cbn; tauto|].
    destruct (X (5, 10)%Z) as (n3 & v3 & C3 & S3 & L3); [cbn; tauto|].
    destruct (X (10, 1000)%Z) as (n4 & v4 & C4 & S4 & L4); [cbn; tauto|].
    rewrite C3 in Ha. rewrite C4 in Hb. injection Ha as ->. injection Hb as ->.
    assert (a = 0) by lia. assert (b = 0) by lia. subst a b.
    cbn [mapM] in HP. unfold get_key in HP. rewrite C0, S0, C1, S1, C2, S2, C3, S3, C4, S4 in HP. cbn [bind] in HP.
    injection HP as <-. cbn [tl app]. unfold read_table. cbn [readline snd FileGroups read_rows].
    rewrite !read_row_spec by assumption. cbn [bind read_rows readline].
    set (t0 := put Range10_up _ _).
    assert (F3 : fresh t0 Range3_up) by reflexivity. assert (F5 : fresh t0 Range5_up) by reflexivity.
    assert (LL : forall r, length (e_vals (t0 r)) = Ms).
    { assert (LR : forall v, length v = Ms -> length (map rnd v) = Ms) by (intros v H; rewrite map_length; exact H).
      intros []; cbn; try (apply LR; assumption); reflexivity. }
    assert (D5 : (docs_of t0 [Range5_10; Range10_up] == 0)%Q) by reflexivity. clearbody t0.
    assert (N3 : ~ In Range3_up [Range3_5; Range5_10; Range10_up]) by (cbn; intuition discriminate).
    destruct (Qeq_dec (docs_of t0 [Range3_5; Range5_10; Range10_up]) 0) as [Z|Z].
    { rewrite C59_no_documents by assumption. reflexivity. }
    destruct (C59_weighted_means t0 Range3_up [Range3_5; Range5_10; Range10_up] N3 LL F3 Z) as (t1 & E1 & O1 & _ & LL1 & _).
    rewrite E1. cbn [bind]. rewrite C59_no_documents; [reflexivity|cbn; intuition discriminate| | |].
    - intros r. destruct (range_eq_dec r Range3_up) as [->|D]; [exact LL1|]. rewrite O1 by exact D. apply LL.
    - unfold fresh. rewrite O1 by discriminate. exact F5.
    - unfold docs_of in *. cbn [fold_right] in *. rewrite !O1 by discriminate. exact D5.
  Qed.
End RoundTrip.

(** ** A concrete format: counts in decimal, every value printed as "v". *)
Definition demo_float (s : list ascii) : res Q :=
  match NilEmpty.uint_of_string (string_of_list_ascii s) with
  | Some u => Ok (inject_Z (Z.of_nat (Nat.of_uint u)))
  | None => Ok 0%Q
  end.
Lemma digit_not_space c : is_digit c = true -> is_space c = false /\ c <> bar.
Proof.
  intros H. pose proof (lower_all (fun c => negb (is_digit c) || (negb (is_space c) && negb (Ascii.eqb c bar))) c eq_refl) as G.
  cbv beta in G. rewrite H in G. cbn [negb orb] in G. apply andb_prop in G as [A B].
  split; [destruct (is_space c); [discriminate A|reflexivity]|]. intros ->. discriminate B.
Qed.
Lemma strip_digits s : digits s -> s <> [] -> strip (T " " ++ s ++ T " ") = s.
Proof.
  intros D N. destruct s as [|c s]; [congruence|]. inversion D as [|? ? Hc Ds]; subst.
  destruct (digit_not_space c Hc) as [Sc _]. destruct s as [|d s] using rev_ind.
  - apply (C112_strip (T " ") c [] c (T " ")); auto.
  - clear IHs. apply Forall_app in Ds as [_ Dd]. inversion Dd; subst. destruct (digit_not_space d H1) as [Sd _].
    apply (C112_strip (T " ") c s d (T " ")); auto.
Qed.
Lemma demo_formats : formats (fun _ => T "g") str (fun _ => T "v") demo_float (fun _ => 0%Q).
Proof.
  split; [|split].
  - intros _ [H|[]]. discriminate H.
  - intros n. split.
    + intros H. pose proof (str_digits n) as D. unfold digits in D. rewrite Forall_forall in D. apply D in H. discriminate H.
    + rewrite strip_digits by (apply str_digits || apply str_nonempty). unfold demo_float, str, T.
      rewrite string_of_list_ascii_of_string, NilEmpty.usu, DecimalNat.Unsigned.of_to. reflexivity.
  - intros q. split; [intros [H|[]]; discriminate H|reflexivity].
Qed.

Definition demo_scores : dict (list Q) := map (fun g => (g, repeat (1#2)%Q 10)) eval_groups.
Definition demo_counts (large : nat) : dict nat := combine eval_groups [1; 2; large; 0; 3 + large].
Theorem C113_every_table_is_read_refuted : exists lines,
  print_table (fun _ => T "g") str (fun _ => T "v") [] [] (T "Precision") demo_scores (demo_counts 0) = Ok lines /\
  read_table demo_float (tl lines) = Raise ZeroDivisionError.
Proof.
  eexists. split; [reflexivity|]. vm_compute. reflexivity.
Qed.
Example C113_case : exists lines t rest,
  print_table (fun _ => T "g") str (fun _ => T "v") [] [] (T "Precision") demo_scores (demo_counts 7) = Ok lines /\
  read_table demo_float (tl lines) = Ok (t, [], rest) /\ e_docs (t Range5_10) = 7%Q /\ (e_docs (t Range3_up) == 9)%Q.
Proof. do 3 eexists. split; [reflexivity|]. split; [reflexivity|]. split; reflexivity. Qed.

Print Assumptions C59_weighted_means.
Print Assumptions C59_no_documents.
Print Assumptions C59_between.
Print Assumptions C113_read_back.
Print Assumptions C113_no_large_documents.
Print Assumptions C113_every_table_is_read_refuted.
