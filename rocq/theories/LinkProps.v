(** * Link prediction: C52, C53, C120, C121, C122. *)
From Coq Require Import List Reals ZArith Arith Bool Lra Lia Sorted Permutation.
From Flocq Require Import Core.
From Verif Require Import Base RealModel RealProofs EvalGroups VbModel VbProofs LinkModel.
Import ListNotations.
Open Scope nat_scope.

(** ** C52 *)
(** The links of a graph as a relation; what a symmetric graph and sorted rows are. *)
Definition linked (links : list (list nat)) (a b : nat) : Prop :=
  exists row, nth_error links a = Some row /\ In b row.
Definition symmetric (links : list (list nat)) : Prop := forall a b, linked links a b -> linked links b a.
Definition sorted_rows (links : list (list nat)) : Prop := Forall (StronglySorted lt) links.

Lemma up_to_spec d row : StronglySorted lt row -> forall x, In x (links_up_to_row d row) <-> In x row /\ x < d.
Proof.
  induction 1 as [|y r Hs IH Hy]; intros x; cbn [links_up_to_row In]; [tauto|].
  rewrite Forall_forall in Hy.
  destruct (Nat.leb_spec d y).
  - cbn [In]. split; [tauto|]. intros [[->|H0] H1]; [lia|]. specialize (Hy x H0). lia.
  - cbn [In]. rewrite IH. split; [intros [->|[? ?]]; auto|]. intros [[->|?] ?]; auto.
Qed.
Lemma up_to_incl d row x : In x (links_up_to_row d row) -> In x row /\ x < d.
Proof.
  induction row as [|y r IH]; cbn [links_up_to_row In]; [tauto|].
  destruct (Nat.leb_spec d y); [intros []|]. intros [->|H0]; [auto|]. specialize (IH H0). tauto.
Qed.
Lemma up_to_nodup d row : NoDup row -> NoDup (links_up_to_row d row).
Proof.
  induction 1 as [|y r Hn H IH]; cbn [links_up_to_row]; [constructor|].
  destruct (d <=? y); constructor; auto. intros H0%up_to_incl. tauto.
Qed.

Lemma visited_in links p : In p (visited_links links) <->
  exists row, nth_error links (fst p) = Some row /\ In (snd p) (links_up_to_row (fst p) row).
Proof.
  unfold visited_links. rewrite in_flat_map. split.
  - intros (d & Hd & H). unfold links_up_to, get_ in H. destruct (nth_error links d) eqn:E; cbn [bind] in H; [|destruct H].
    apply in_map_iff in H as (x & <- & Hx). cbn [fst snd]. eauto.
  - intros (row & H1 & H2). exists (fst p). split.
    + apply in_seq. pose proof (proj1 (nth_error_Some links (fst p)) ltac:(congruence)). lia.
    + unfold links_up_to, get_. rewrite H1. cbn [bind]. apply in_map_iff. exists (snd p). split; [destruct p; reflexivity|exact H2].
Qed.

Lemma NoDup_flat_map {A B} (f : A -> list B) (g : B -> A) l :
  NoDup l -> (forall a, In a l -> NoDup (f a)) -> (forall a b, In b (f a) -> g b = a) -> NoDup (flat_map f l).
Proof.
  intros Hl Hf Hg. induction Hl as [|a l Ha Hl IH]; cbn [flat_map]; [constructor|].
  assert (H1 : NoDup (f a)) by (apply Hf; left; reflexivity).
  assert (H2 : NoDup (flat_map f l)) by (apply IH; intros; apply Hf; right; assumption).
  assert (H3 : forall b, In b (f a) -> ~ In b (flat_map f l)).
  { intros b Hb (a' & Ha' & Hb')%in_flat_map. apply Hg in Hb. apply Hg in Hb'. subst. exact (Ha Ha'). }
  clear -H1 H2 H3. induction H1 as [|b l0 Hb H IH]; cbn [app]; [exact H2|].
  constructor.
  - rewrite in_app_iff. intros [?|?]; [tauto|]. apply (H3 b); [left; reflexivity|assumption].
  - apply IH. intros b' Hb'. apply H3. right; exact Hb'.
Qed.

(** Every link between two different documents is visited once, from the later
    document; nothing else is visited. *)
Definition same_link (a b : nat) (p : nat * nat) : bool :=
  ((fst p =? a) && (snd p =? b)) || ((fst p =? b) && (snd p =? a)).

Lemma filter_one {A} (f : A -> bool) (l : list A) x :
  NoDup l -> In x l -> (forall y, In y l -> f y = true <-> y = x) -> length (filter f l) = 1.
Proof.
  induction 1 as [|y l Hn H IH]; intros Hx Hf; [destruct Hx|]. cbn [filter].
  destruct Hx as [->|Hx].
  - assert (f x = true) as -> by (apply Hf; [left|]; reflexivity). cbn [length]. f_equal.
    assert (forall z, In z l -> f z = false) as Hz.
    { intros z Hz. destruct (f z) eqn:E; [|reflexivity]. apply Hf in E; [|right; exact Hz]. subst. tauto. }
    clear -Hz. induction l as [|z l IH]; [reflexivity|]. cbn [filter]. rewrite (Hz z (or_introl eq_refl)).
    apply IH. intros; apply Hz; right; assumption.
  - destruct (f y) eqn:E.
    + apply Hf in E; [|left; reflexivity]. subst. tauto.
    + apply IH; [exact Hx|]. intros z Hz. apply Hf. right; exact Hz.
Qed.

Theorem C52_each_link_once links a b :
  symmetric links -> sorted_rows links -> a <> b -> linked links a b ->
  length (filter (same_link a b) (visited_links links)) = 1.
Proof.
  intros Hsym Hs Hab Hl.
  assert (Hnd : NoDup (visited_links links)).
  { unfold visited_links. apply NoDup_flat_map with (g := fst).
    - apply seq_NoDup.
    - intros d _. unfold links_up_to, get_. destruct (nth_error links d) as [row|] eqn:E; cbn [bind]; [|constructor].
      apply nth_error_In in E. unfold sorted_rows in Hs. rewrite Forall_forall in Hs. specialize (Hs row E).
      assert (NoDup row) as Hr.
      { clear -Hs. induction Hs as [|x r Hs IH Hx]; constructor; [|exact IH]. intros Hi. rewrite Forall_forall in Hx. specialize (Hx x Hi). lia. }
      apply (up_to_nodup d) in Hr. clear -Hr. induction Hr; cbn [map]; constructor; [|assumption].
      intros (y & E & Hy)%in_map_iff. injection E as ->. tauto.
    - intros d p Hp. destruct (links_up_to d links); [|destruct Hp]. apply in_map_iff in Hp as (x & <- & _). reflexivity. }
  assert (Hin : forall d p, linked links d p -> p < d -> In (d, p) (visited_links links)).
  { intros d p (row & E & Hp) Hlt. apply visited_in. cbn [fst snd]. exists row. split; [exact E|].
    apply up_to_spec; [|auto]. unfold sorted_rows in Hs. rewrite Forall_forall in Hs. apply Hs. eapply nth_error_In; exact E. }
  assert (Hlt : forall q, In q (visited_links links) -> snd q < fst q).
  { intros q (row & _ & Hq)%visited_in. apply up_to_incl in Hq. tauto. }
  destruct (Nat.lt_gt_cases a b) as [H0 _]. specialize (H0 Hab). destruct H0 as [H0|H0].
  - apply (filter_one _ _ (b, a)); [exact Hnd|apply Hin; [apply Hsym; exact Hl|exact H0]|].
    intros [x y] Hq%Hlt. cbn [fst snd] in Hq. unfold same_link. cbn [fst snd].
    split; [|injection 1 as -> ->; rewrite !Nat.eqb_refl; apply orb_true_r]. intros E. f_equal; lia.
  - apply (filter_one _ _ (a, b)); [exact Hnd|apply Hin; [exact Hl|exact H0]|].
    intros [x y] Hq%Hlt. cbn [fst snd] in Hq. unfold same_link. cbn [fst snd].
    split; [|injection 1 as -> ->; rewrite !Nat.eqb_refl; reflexivity]. intros E. f_equal; lia.
Qed.

Theorem C52_only_links links d p :
  In (d, p) (visited_links links) -> linked links d p /\ p < d.
Proof.
  intros (row & E & H)%visited_in. cbn [fst snd] in *. apply up_to_incl in H. split; [exists row|]; tauto.
Qed.

(** Rows whose indices are not sorted, which the CSR format allows, lose links. *)
Theorem C52_unsorted_rows_refuted :
  exists links a b, symmetric links /\ Forall (@NoDup nat) links /\ a <> b /\ linked links a b /\
    length (filter (same_link a b) (visited_links links)) = 0.
Proof.
  exists [[2]; [2]; [2; 0; 1]], 2, 0. split; [|split; [|split; [|split]]].
  - intros a b (row & E & H). destruct a as [|[|[|[|a]]]]; cbn in E; try discriminate E; injection E as <-; cbn in H.
    + destruct H as [<-|[]]. exists [2; 0; 1]; cbn; auto.
    + destruct H as [<-|[]]. exists [2; 0; 1]; cbn; auto.
    + destruct H as [<-|[<-|[<-|[]]]]; eexists; split; try reflexivity; cbn; auto.
  - repeat constructor; cbn; lia.
  - discriminate.
  - exists [2; 0; 1]. cbn; auto.
  - reflexivity.
Qed.

Example C52_case : exists links, symmetric links /\ sorted_rows links /\ linked links 0 2 /\
  visited_links links = [(1, 0); (2, 0)].
Proof.
  exists [[1; 2]; [0]; [0; 2]]. split; [|split; [|split]].
  - intros a b (row & E & H). destruct a as [|[|[|[|a]]]]; cbn in E; try discriminate E; injection E as <-; cbn in H.
    + destruct H as [<-|[<-|[]]]; eexists; split; try reflexivity; cbn; auto.
    + destruct H as [<-|[]]. eexists; split; try reflexivity; cbn; auto.
    + destruct H as [<-|[<-|[]]]; eexists; split; try reflexivity; cbn; auto.
  - repeat constructor.
  - exists [1; 2]; cbn; auto.
  - reflexivity.
Qed.

(** ** C53 *)
Definition the_same (x : R) : R := x.

(** What a row of predictions has to contain, in terms of the score that is stored:
    every expected document, and every document that would be ranked with or before
    it.  [mins] and [rows] are what the two functions return. *)
Definition keeps (ndst : nat) (score : nat -> nat -> num) (src dst : nat) (row : list (nat * num)) : Prop :=
  exists x, score src dst = Some x /\ In (dst, Some x) row /\
    forall other y, other < ndst -> score src other = Some y -> (x <= y)%R -> In (other, Some y) row.

Lemma fold_min_none r x m :
  fold_left (fun m y => if nlt y m then y else m) r (Some x) = m -> exists y, m = Some y.
Proof.
  revert x. induction r as [|y r IH]; intros x; cbn [fold_left]; [intros <-; eauto|].
  destruct (nlt y (Some x)) eqn:E; [|apply IH].
  destruct y as [y|]; [apply IH|discriminate E].
Qed.
Lemma fold_min_le r x m :
  fold_left (fun m y => if nlt y m then y else m) r (Some x) = Some m ->
  (m <= x)%R /\ forall y, In (Some y) r -> (m <= y)%R.
Proof.
  revert x. induction r as [|y r IH]; intros x; cbn [fold_left].
  - injection 1 as ->. split; [lra|intros ? []].
  - destruct (nlt y (Some x)) eqn:E.
    + destruct y as [y|]; [|discriminate E]. cbn [nlt] in E. apply rltb_true in E.
      intros H%IH. destruct H as [H1 H2]. split; [lra|]. intros z [H|H]; [injection H as ->; lra|auto].
    + intros H%IH. destruct H as [H1 H2]. split; [lra|]. intros z [H|H]; [|auto].
      subst y. cbn [nlt] in E. apply rltb_false in E. lra.
Qed.

Lemma rows_spec nsrc ndst store sall margin mins subset rows : link_probs nsrc ndst store sall margin mins subset = Ok rows ->
    length rows = length subset /\
    forall i src, nth_error subset i = Some src ->
      src < nsrc /\ exists m, nth_error mins i = Some m /\
        nth_error rows i = Some (map (fun dst => (dst, option_map store (sall src dst)))
          (filter (fun dst => nge (sall src dst) (option_map (fun x => x - margin)%R m)) (seq 0 ndst))).
  Proof.
    intros H. unfold link_probs in H. apply mapM_ok_Forall2 in H.
    assert (Hlen : length (combine (seq 0 (length subset)) subset) = length subset) by (rewrite combine_length, seq_length; lia).
    split; [rewrite <- Hlen; symmetry; eapply Forall2_len; exact H|].
    intros i src Hi.
    assert (Hc : nth_error (combine (seq 0 (length subset)) subset) i = Some (i, src)).
    { pose proof (proj1 (nth_error_Some subset i) ltac:(congruence)) as Hlt.
      clear -Hi Hlt. rewrite (nth_error_nth' _ (0, 0)) by (rewrite combine_length, seq_length; lia).
      rewrite combine_nth by apply seq_length. rewrite seq_nth by lia. cbn. f_equal. f_equal.
      apply nth_error_nth with (d := 0) in Hi. exact Hi. }
    assert (exists v, nth_error rows i = Some v) as (v & Hv).
    { destruct (nth_error rows i) eqn:E; [eauto|]. apply nth_error_None in E.
      rewrite <- (Forall2_len _ _ _ H) in E. apply nth_error_None in E. congruence. }
    assert (Hb : (if src <? nsrc then
        do m <- get_ mins i;
        let relevant := filter (fun dst => nge (sall src dst) (option_map (fun x => x - margin)%R m)) (seq 0 ndst) in
        Ok (map (fun dst => (dst, option_map store (sall src dst))) relevant)
      else Raise IndexError) = Ok v).
    { revert Hc Hv H. generalize (combine (seq 0 (length subset)) subset). clear. intros l Hc Hv H. revert Hc Hv.
      generalize i at 2 4. intros j. revert j.
      revert i. induction H as [|a b l l' Hab H IH]; intros [|i] j Hc Hv; cbn [nth_error] in *; try discriminate.
      - injection Hc as ->. injection Hv as ->. exact Hab.
      - eapply IH; eassumption. }
    destruct (src <? nsrc) eqn:E; [|discriminate Hb]. apply bind_ok in Hb as (m & H1 & Hb). injection Hb as <-.
    split; [lia|]. exists m. split; [|exact Hv]. unfold get_ in H1. destruct (nth_error mins i); [congruence|discriminate H1].
  Qed.

Section Keep.
  Context (nsrc ndst : nat) (store : R -> R) (smin sall : nat -> nat -> num) (none margin : R)
          (links : list (list nat)) (subset : list nat).

  Lemma min_spec mins : min_link_probs nsrc ndst store smin none links subset = Ok mins ->
    length mins = length subset /\
    forall i src, nth_error subset i = Some src ->
      exists ls m, nth_error links src = Some ls /\ nth_error mins i = Some (option_map store m) /\
        (forall dst, In dst ls -> src < nsrc /\ dst < ndst) /\
        (ls = [] -> m = Some none) /\
        (forall x r, ls = x :: r -> smin src x <> None -> exists y, m = Some y) /\
        (forall y dst x, m = Some y -> In dst ls -> smin src (hd 0 ls) <> None -> smin src dst = Some x -> (y <= x)%R).
  Proof.
    intros H. unfold min_link_probs in H. apply mapM_ok_Forall2 in H. split; [symmetry; eapply Forall2_len; exact H|].
    intros i src Hi.
    assert (exists v, nth_error mins i = Some v) as (v & Hv).
    { destruct (nth_error mins i) eqn:E; [eauto|]. apply nth_error_None in E.
      rewrite <- (Forall2_len _ _ _ H) in E. apply nth_error_None in E. congruence. }
    assert (Hb : (do ls <- get_ links src;
      do probs <- mapM (fun dst => if (src <? nsrc) && (dst <? ndst) then Ok (smin src dst) else Raise IndexError) ls;
      do m <- match probs with [] => Ok (Some none) | _ => py_min probs end;
      Ok (option_map store m)) = Ok v).
    { clear -H Hi Hv. revert i Hi Hv. induction H as [|a b l l' Hab H IH]; intros [|i] Hi Hv; cbn [nth_error] in *; try discriminate.
      - injection Hi as ->. injection Hv as ->. exact Hab.
      - eapply IH; eassumption. }
    apply bind_ok in Hb as (ls & H1 & Hb). apply bind_ok in Hb as (probs & H2 & Hb). apply bind_ok in Hb as (m & H3 & Hb).
    injection Hb as <-. exists ls, m.
    unfold get_ in H1. destruct (nth_error links src) as [ls'|] eqn:El; [|discriminate H1]. injection H1 as ->.
    apply mapM_ok_Forall2 in H2.
    assert (Hr : forall dst, In dst ls -> src < nsrc /\ dst < ndst).
    { intros dst Hd. clear -H2 Hd. induction H2 as [|a b l l' Hab H IH]; [destruct Hd|].
      destruct Hd as [->|Hd]; [|apply IH; exact Hd].
      destruct ((src <? nsrc) && (dst <? ndst)) eqn:E; [|discriminate Hab]. lia. }
    assert (Hp : probs = map (smin src) ls).
    { clear -H2. induction H2 as [|a b l l' Hab H IH]; [reflexivity|]. cbn [map]. rewrite IH.
      destruct ((src <? nsrc) && (a <? ndst)); [|discriminate Hab]. injection Hab as ->. reflexivity. }
    subst probs. split; [reflexivity|]. split; [exact Hv|]. split; [exact Hr|].
    destruct ls as [|x r]; cbn [map] in H3.
    { injection H3 as <-. split; [reflexivity|]. split; [discriminate|]. intros ? ? ? _ []. }
    unfold py_min in H3. injection H3 as H3. split; [discriminate|].
    split.
    - intros x0 r0 E Hn. injection E as <- <-. destruct (smin src x) as [y|]; [|congruence].
      apply fold_min_none in H3. exact H3.
    - intros y dst z -> Hd Hn Hz. cbn [hd] in Hn. destruct (smin src x) as [x0|] eqn:Ex; [|congruence].
      apply fold_min_le in H3 as [Ha Hb]. destruct Hd as [->|Hd].
      + rewrite Ex in Hz. injection Hz as ->. exact Ha.
      + apply Hb. rewrite <- Hz. apply in_map. exact Hd.
  Qed.

  (** The rounding of the stored minimum and the difference between the two ways of
      computing a score must not exceed the margin. *)
  Lemma keeps_spec mins rows i src ls dst row :
    min_link_probs nsrc ndst store smin none links subset = Ok mins ->
    link_probs nsrc ndst the_same sall margin mins subset = Ok rows ->
    nth_error subset i = Some src -> nth_error links src = Some ls -> In dst ls ->
    nth_error rows i = Some row ->
    (forall d, In d ls -> smin src d = sall src d /\ sall src d <> None) ->
    (forall x y, (x <= y)%R -> (store x - margin <= y)%R) ->
    keeps ndst sall src dst row.
  Proof.
    intros Hm Hr Hi Hl Hd Hrow Hsame Hround.
    destruct (min_spec _ Hm) as [_ Hm']. destruct (Hm' _ _ Hi) as (ls' & m & E & Hn & Hrng & _ & Hsome & Hle).
    rewrite Hl in E. injection E as <-.
    assert (Hrs := Hr). clear Hm'.
    assert (exists m, nth_error mins i = Some m /\ nth_error rows i = Some (map (fun dst => (dst, option_map the_same (sall src dst)))
          (filter (fun dst => nge (sall src dst) (option_map (fun x => x - margin)%R m)) (seq 0 ndst)))) as (m' & Hn' & Hrow').
    { pose proof (proj2 (rows_spec _ _ _ _ _ _ _ _ Hrs) i src Hi) as (_ & m' & ? & ?). eauto. }
    rewrite Hn in Hn'. injection Hn' as <-. rewrite Hrow in Hrow'. injection Hrow' as ->.
    destruct ls as [|x0 r0]; [destruct Hd|].
    destruct (Hsame x0 (or_introl eq_refl)) as [Hx0 Hx0'].
    destruct (Hsome x0 r0 eq_refl) as (y & ->); [congruence|].
    destruct (Hsame dst Hd) as [Hs Hs']. destruct (sall src dst) as [x|] eqn:Ex; [|congruence].
    pose proof (Hle y dst x eq_refl Hd ltac:(cbn [hd]; congruence) Hs) as Hyx.
    exists x. split; [exact Ex|].
    assert (Hall : forall other z, other < ndst -> sall src other = Some z -> (x <= z)%R ->
      In (other, Some z) (map (fun dst => (dst, option_map the_same (sall src dst)))
          (filter (fun dst => nge (sall src dst) (option_map (fun x => x - margin)%R (option_map store (Some y)))) (seq 0 ndst)))).
    { intros o z Ho Hz Hxz. apply in_map_iff. exists o. rewrite Hz. split; [reflexivity|].
      apply filter_In. split; [apply in_seq; lia|]. rewrite Hz. cbn [option_map nge]. apply rleb_true. apply Hround. lra. }
    split; [|exact Hall]. apply Hall; [|exact Ex|lra]. destruct (Hrng dst Hd); assumption.
  Qed.
End Keep.

(** The subset and the links name documents that exist. *)
Definition in_range (nsrc ndst : nat) (links : list (list nat)) (subset : list nat) : Prop :=
  forall src, In src subset -> src < nsrc /\ exists ls, nth_error links src = Some ls /\ forall d, In d ls -> d < ndst.

Lemma mapM_total {A B} (f : A -> res B) l : (forall a, In a l -> exists b, f a = Ok b) -> exists r, mapM f l = Ok r.
Proof.
  induction l as [|a l IH]; intros H; [exists []; reflexivity|].
  destruct (H a (or_introl eq_refl)) as (b & Hb). destruct IH as (r & Hr); [intros; apply H; right; assumption|].
  exists (b :: r). cbn [mapM]. rewrite Hb. cbn [bind]. rewrite Hr. reflexivity.
Qed.

Lemma predict_total nsrc ndst store store' smin sall none margin links subset :
  in_range nsrc ndst links subset ->
  exists mins rows, min_link_probs nsrc ndst store smin none links subset = Ok mins /\
    link_probs nsrc ndst store' sall margin mins subset = Ok rows.
Proof.
  intros Hr.
  destruct (mapM_total (fun src =>
      do ls <- get_ links src;
      do probs <- mapM (fun dst => if (src <? nsrc) && (dst <? ndst) then Ok (smin src dst) else Raise IndexError) ls;
      do m <- match probs with [] => Ok (Some none) | _ => py_min probs end;
      Ok (option_map store m)) subset) as (mins & Hm).
  { intros src Hs. destruct (Hr src Hs) as (H1 & ls & H2 & H3). unfold get_. rewrite H2. cbn [bind].
    destruct (mapM_total (fun dst => if (src <? nsrc) && (dst <? ndst) then Ok (smin src dst) else Raise IndexError) ls) as (probs & Hp).
    { intros d Hd. specialize (H3 d Hd). assert ((src <? nsrc) && (d <? ndst) = true) as -> by lia. eauto. }
    rewrite Hp. cbn [bind]. destruct probs; cbn [py_min bind]; eauto. }
  exists mins. change (min_link_probs nsrc ndst store smin none links subset = Ok mins) in Hm.
  destruct (mapM_total (fun '(outRow, src) =>
      if src <? nsrc then
        do m <- get_ mins outRow;
        let relevant := filter (fun dst => nge (sall src dst) (option_map (fun x => x - margin)%R m)) (seq 0 ndst) in
        Ok (map (fun dst => (dst, option_map store' (sall src dst))) relevant)
      else Raise IndexError) (combine (seq 0 (length subset)) subset)) as (rows & Hrows).
  { intros [i src] Hi. destruct (Hr src (in_combine_r _ _ _ _ Hi)) as (H1 & _).
    assert (src <? nsrc = true) as -> by lia.
    apply in_combine_l, in_seq in Hi. pose proof (mapM_length _ _ _ Hm) as Hl.
    unfold get_. destruct (nth_error mins i) eqn:E; [cbn [bind]; eauto|]. exfalso. apply nth_error_None in E.
    change (length mins <= i) in E. change (length mins = length subset) in Hl. lia. }
  exists rows. split; [exact Hm|exact Hrows].
Qed.

(** What C53 says of two functions that are called one after the other. *)
Definition retains (nsrc ndst : nat) (smin sall : nat -> nat -> num) (none margin : R) : Prop :=
  forall links subset, in_range nsrc ndst links subset ->
    exists mins rows,
      min_link_probs nsrc ndst the_same smin none links subset = Ok mins /\
      link_probs nsrc ndst the_same sall margin mins subset = Ok rows /\
      length rows = length subset /\
      forall i src ls dst, nth_error subset i = Some src -> nth_error links src = Some ls -> In dst ls ->
        exists row, nth_error rows i = Some row /\ NoDup (map fst row) /\ keeps ndst sall src dst row.

Lemma retains_spec nsrc ndst smin sall none margin : (0 <= margin)%R ->
  (forall src dst, src < nsrc -> dst < ndst -> smin src dst = sall src dst /\ sall src dst <> None) ->
  retains nsrc ndst smin sall none margin.
Proof.
  intros Hm Hs links subset Hr.
  destruct (predict_total nsrc ndst the_same the_same smin sall none margin links subset Hr) as (mins & rows & H1 & H2).
  exists mins, rows. split; [exact H1|]. split; [exact H2|].
  destruct (rows_spec _ _ _ _ _ _ _ _ H2) as [Hl Hrows]. split; [exact Hl|].
  intros i src ls dst Hi Hls Hd. destruct (Hrows i src Hi) as (Hlt & m & _ & Hrow). eexists. split; [exact Hrow|].
  split.
  - rewrite map_map. cbn [fst]. rewrite map_id. apply NoDup_filter, seq_NoDup.
  - apply (keeps_spec nsrc ndst the_same smin sall none margin links subset mins rows i src ls dst); auto.
    + intros d Hd'. destruct (Hr src (nth_error_In _ _ Hi)) as (_ & ls' & E & Hlt'). rewrite Hls in E. injection E as <-.
      apply Hs; [exact Hlt|apply Hlt'; exact Hd'].
    + intros x y Hxy. unfold the_same. lra.
Qed.

Lemma tolerance_pos : (0 <= tolerance)%R.
Proof. unfold tolerance. lra. Qed.
Lemma dot_comm n x y : dot n x y = dot n y x.
Proof. apply vsum_ext. intros. apply Rmult_comm. Qed.

(** LRO. *)
Theorem C53_lro K scale nsrc ndst tops offs :
  retains nsrc ndst (lro_min K scale tops offs) (lro_all K scale tops offs) (-1) tolerance.
Proof.
  apply retains_spec; [exact tolerance_pos|]. intros src dst _ _. unfold lro_min, lro_all.
  rewrite dot_comm. split; [reflexivity|discriminate].
Qed.

(** Similarity of LDA topics. *)
Theorem C53_similar_topics K nsrc ndst src_reps dst_reps :
  retains nsrc ndst (sim_min K src_reps dst_reps) (sim_all K src_reps dst_reps) (-1) tolerance.
Proof.
  apply retains_spec; [exact tolerance_pos|]. intros src dst _ _. split; [|discriminate].
  unfold sim_min, sim_all. cbv zeta.
  assert (E : vsum K (fun k => ((src_reps src k - dst_reps dst k) ^ 2)%R) =
              vsum K (fun k => ((src_reps src k - dst_reps dst k) * (src_reps src k - dst_reps dst k))%R)).
  { apply vsum_ext. intros. ring. }
  rewrite E. set (n := sqrt _). unfold Rmax.
  destruct (rltb n tiny) eqn:El; [apply rltb_true in El|apply rltb_false in El]; destruct (Rle_dec n tiny); try reflexivity.
  - lra.
  - do 2 f_equal. lra.
Qed.

(** The models of in- and out-topics (mtm2, mtm3). *)
Theorem C53_mtm K D nsrc outMeans inMeans :
  retains nsrc D (mtm_min K D outMeans inMeans) (mtm_all K D outMeans inMeans) (-1) tolerance.
Proof.
  apply retains_spec; [exact tolerance_pos|]. intros src dst _ _. split; [|discriminate].
  unfold mtm_min, mtm_all. rewrite dot_comm. reflexivity.
Qed.

(** RTM: the topics that are passed in are the same afterwards. *)
Theorem C53_rtm probit K D weights docLens prior none topicDists links :
  (forall d, d < D -> docLens d <> 0%R) -> in_range D D links (seq 0 D) ->
  let score := rtm_score probit K weights (params_to_means docLens topicDists prior) in
  exists mins rows after1 after2,
    rtm_min_link_probs probit K D weights docLens prior none topicDists links = Ok (mins, after1) /\
    rtm_link_probs probit K D weights docLens prior topicDists mins = Ok (rows, after2) /\
    (forall d k, d < D -> after1 d k = topicDists d k /\ after2 d k = topicDists d k) /\
    length rows = D /\
    forall d ls l, nth_error links d = Some ls -> d < D -> In l ls ->
      exists row, nth_error rows d = Some row /\ NoDup (map fst row) /\ keeps D score d l row.
Proof.
  intros Hlen Hr score.
  assert (Hret : retains D D score score none 0).
  { apply retains_spec; [lra|]. intros. split; [reflexivity|discriminate]. }
  destruct (Hret links (seq 0 D) Hr) as (mins & rows & H1 & H2 & H3 & H4).
  exists mins, rows, (means_to_params docLens (params_to_means docLens topicDists prior) prior),
    (means_to_params docLens (params_to_means docLens topicDists prior) prior).
  unfold rtm_min_link_probs, rtm_link_probs. change (fun x : R => x) with the_same. fold score.
  rewrite H1, H2. cbn [bind]. split; [reflexivity|]. split; [reflexivity|]. rewrite seq_length in H3. split; [|split; [exact H3|]].
  - intros d k Hd. unfold means_to_params, params_to_means. specialize (Hlen d Hd). split; field; exact Hlen.
  - intros d ls l Hls Hd Hl. apply (H4 d d ls l); auto. rewrite (nth_error_nth' _ 0) by (rewrite seq_length; lia).
    rewrite seq_nth by lia. reflexivity.
Qed.

(** TF-IDF, when no document has a representation of norm zero. *)
Lemma row_norm_nonneg T reps d : (0 <= row_norm T reps d)%R.
Proof. apply sqrt_pos. Qed.
Theorem C53_tfidf T nsrc ndst src_reps dst_reps :
  (forall d, d < nsrc -> row_norm T src_reps d <> 0%R) ->
  (forall d, d < ndst -> row_norm T dst_reps d <> 0%R) ->
  retains nsrc ndst (tfidf_min T src_reps dst_reps) (tfidf_all T src_reps dst_reps) (-1) tolerance.
Proof.
  intros H1 H2. apply retains_spec; [exact tolerance_pos|]. intros src dst Hs Hd.
  specialize (H1 src Hs). specialize (H2 dst Hd). unfold tfidf_min, tfidf_all, ndiv.
  destruct (Req_EM_T (row_norm T dst_reps dst) 0); [contradiction|].
  destruct (Req_EM_T (row_norm T src_reps src) 0); [contradiction|].
  destruct (Req_EM_T (row_norm T src_reps src * row_norm T dst_reps dst) 0) as [E|E].
  { apply Rmult_integral in E. tauto. }
  split; [|discriminate]. f_equal. rewrite (dot_comm T (dst_reps dst)). field. tauto.
Qed.

(** Otherwise expected links are lost: with two documents that share no word every
    weight ln(D/(n+1)) is zero, the similarities are NaN and nothing is kept. *)
Definition disjoint_words : mat := fun d t => if d =? t then 1%R else 0%R.
Lemma disjoint_zero d t : t < 2 -> tfidf recip_float 2 2 disjoint_words d t = 0%R.
Proof.
  intros Ht. unfold tfidf. assert (idf 2 disjoint_words t = 0%R) as ->; [|ring].
  unfold idf, doc_count, vsum, disjoint_words. cbn [seq map rsum].
  assert (E : forall x, (if Req_EM_T (if x : bool then 1 else 0)%R 0 then 0 else 1)%R = (if x then 1 else 0)%R).
  { intros []; destruct (Req_EM_T _ 0); lra. }
  rewrite !E. destruct t as [|[|t]]; [| |lia]; cbn [Nat.eqb].
  - replace (INR 2 / (1 + (0 + 0) + 1))%R with 1%R; [apply ln_1|cbn; field].
  - replace (INR 2 / (0 + (1 + 0) + 1))%R with 1%R; [apply ln_1|cbn; field].
Qed.
Lemma zero_norm T reps d : (forall t, t < T -> reps d t = 0%R) -> row_norm T reps d = 0%R.
Proof.
  intros H. unfold row_norm. rewrite (vsum_ext _ _ (fun _ => 0%R)).
  - rewrite vsum_const, Rmult_0_r. apply sqrt_0.
  - intros t Ht. rewrite (H t Ht), Rmult_0_l. apply Rabs_R0.
Qed.
Lemma tfidf_min_nan T a b s d : row_norm T b d = 0%R -> tfidf_min T a b s d = None.
Proof. intros H. unfold tfidf_min, ndiv. rewrite H, Rmult_0_r. destruct (Req_EM_T 0 0); [reflexivity|lra]. Qed.
Lemma tfidf_all_nan T a b s d : row_norm T b d = 0%R \/ row_norm T a s = 0%R -> tfidf_all T a b s d = None.
Proof.
  intros H. unfold tfidf_all, ndiv. destruct (Req_EM_T (row_norm T b d) 0); [reflexivity|].
  destruct (Req_EM_T (row_norm T a s) 0); [reflexivity|tauto].
Qed.
Theorem C53_tfidf_zero_weights_refuted :
  exists D T words links mins rows, let reps := tfidf recip_float D T words in
    (forall d t, d < D -> t < T -> (0 <= words d t)%R) /\ (forall d, d < D -> (0 < vsum T (words d))%R) /\
    in_range D D links (seq 0 D) /\
    min_link_probs D D the_same (tfidf_min T reps reps) (-1) links (seq 0 D) = Ok mins /\
    link_probs D D the_same (tfidf_all T reps reps) tolerance mins (seq 0 D) = Ok rows /\
    linked links 0 1 /\ nth_error rows 0 = Some [].
Proof.
  set (reps := tfidf recip_float 2 2 disjoint_words).
  assert (Hn : forall d, row_norm 2 reps d = 0%R).
  { intros d. apply zero_norm. intros t Ht. apply disjoint_zero; exact Ht. }
  assert (Hr : in_range 2 2 [[1]; []] (seq 0 2)).
  { intros src H. apply in_seq in H. split; [lia|]. destruct src as [|[|?]]; [| |lia].
    - exists [1]. split; [reflexivity|]. intros d [<-|[]]; lia.
    - exists []. split; [reflexivity|]. intros d []. }
  destruct (predict_total 2 2 the_same the_same (tfidf_min 2 reps reps) (tfidf_all 2 reps reps) (-1) tolerance [[1]; []] (seq 0 2) Hr)
    as (mins & rows & H1 & H2).
  exists 2, 2, disjoint_words, [[1]; []], mins, rows. cbv zeta. fold reps.
  split; [intros d t _ _; unfold disjoint_words; destruct (d =? t); lra|].
  split. { intros d Hd. unfold vsum, disjoint_words. cbn [seq map rsum]. destruct d as [|[|d]]; [| |lia]; cbn [Nat.eqb]; lra. }
  split; [exact Hr|]. split; [exact H1|]. split; [exact H2|]. split; [exists [1]; cbn; auto|].
  destruct (rows_spec _ _ _ _ _ _ _ _ H2) as [_ H3]. destruct (H3 0 0 eq_refl) as (_ & m & _ & ->).
  cbn [seq filter]. rewrite !tfidf_all_nan by (left; apply Hn). reflexivity.
Qed.

(** The minimum is kept in the dtype of the model, by default of single precision
    (DTYPE, sim_based_rec.py line 27), while the similarities of counts in double
    precision are compared as doubles: a similarity of 3/5 is rounded up and the
    only expected link is then too unlikely. *)
Definition float32 : R -> R := round radix2 (FLT_exp (-149) 24) ZnearestE.
Lemma float32_three_fifths : (float32 (3 / 5) = 5033165 / 8388608)%R.
Proof.
  unfold float32, round, scaled_mantissa, cexp.
  assert (Hmag : mag radix2 (3 / 5) = 0%Z :> Z).
  { apply mag_unique. rewrite Rabs_pos_eq by lra. cbn. lra. }
  rewrite Hmag. change (FLT_exp (-149) 24 0) with (-24)%Z. change (- -24)%Z with 24%Z.
  assert (Hz : ZnearestE (3 / 5 * bpow radix2 24) = 10066330%Z).
  { apply Znearest_imp. cbn [bpow Z.pow_pos radix2 radix_val Pos.iter Z.mul Pos.mul]. rewrite Rabs_left; cbn; lra. }
  rewrite Hz.
  unfold F2R. cbn. lra.
Qed.

Definition three_four : mat := fun d t => match d, t with 0, 0 => 3%R | 0, _ => 4%R | _, 0 => 1%R | _, _ => 0%R end.
Lemma norm_0 : row_norm 2 three_four 0 = 5%R.
Proof.
  unfold row_norm, vsum. cbn [seq map rsum three_four]. rewrite !Rabs_pos_eq by lra.
  replace (3 * 3 + (4 * 4 + 0))%R with (5 * 5)%R by ring. apply sqrt_square. lra.
Qed.
Lemma norm_1 : row_norm 2 three_four 1 = 1%R.
Proof.
  unfold row_norm, vsum. cbn [seq map rsum three_four]. rewrite !Rabs_pos_eq by lra.
  replace (1 * 1 + (0 * 0 + 0))%R with (1 * 1)%R by ring. apply sqrt_square. lra.
Qed.
Lemma three_fifths_min : tfidf_min 2 three_four three_four 0 1 = Some (3 / 5)%R.
Proof.
  unfold tfidf_min, ndiv, dot, vsum. rewrite norm_0, norm_1. cbn [seq map rsum three_four].
  destruct (Req_EM_T (5 * 1) 0); [lra|]. f_equal. field.
Qed.
Lemma three_fifths_all : tfidf_all 2 three_four three_four 0 1 = Some (3 / 5)%R.
Proof.
  unfold tfidf_all, ndiv, dot, vsum. rewrite norm_0, norm_1. cbn [seq map rsum three_four].
  destruct (Req_EM_T 1 0); [lra|]. destruct (Req_EM_T 5 0); [lra|]. f_equal. field.
Qed.
Theorem C53_single_precision_refuted :
  exists T D reps links mins rows row,
    (forall d, d < D -> row_norm T reps d <> 0%R) /\
    in_range D D links (seq 0 D) /\ linked links 0 1 /\
    min_link_probs D D float32 (tfidf_min T reps reps) (-1) links (seq 0 D) = Ok mins /\
    link_probs D D float32 (tfidf_all T reps reps) tolerance mins (seq 0 D) = Ok rows /\
    nth_error rows 0 = Some row /\ ~ In 1 (map fst row).
Proof.
  assert (Hr : in_range 2 2 [[1]; []] (seq 0 2)).
  { intros src H. apply in_seq in H. split; [lia|]. destruct src as [|[|?]]; [| |lia].
    - exists [1]. split; [reflexivity|]. intros d [<-|[]]; lia.
    - exists []. split; [reflexivity|]. intros d []. }
  destruct (predict_total 2 2 float32 float32 (tfidf_min 2 three_four three_four) (tfidf_all 2 three_four three_four) (-1) tolerance [[1]; []] (seq 0 2) Hr)
    as (mins & rows & H1 & H2).
  destruct (rows_spec _ _ _ _ _ _ _ _ H2) as [_ H3]. destruct (H3 0 0 eq_refl) as (_ & m & Hm & Hrow).
  exists 2, 2, three_four, [[1]; []], mins, rows. eexists.
  split. { intros d Hd. destruct d as [|[|d]]; [rewrite norm_0|rewrite norm_1|lia]; lra. }
  split; [exact Hr|]. split; [exists [1]; cbn; auto|]. split; [exact H1|]. split; [exact H2|]. split; [exact Hrow|].
  rewrite map_map. cbn [fst]. rewrite map_id. intros H. apply filter_In in H as [_ H].
  rewrite three_fifths_all in H.
  assert (Em : m = Some (float32 (3 / 5))).
  { clear -H1 Hm. unfold min_link_probs in H1. cbn [seq mapM] in H1. unfold get_ at 1 in H1. cbn [nth_error bind mapM] in H1.
    cbn [Nat.ltb Nat.leb andb bind] in H1. rewrite three_fifths_min in H1. cbn [py_min fold_left bind option_map] in H1.
    unfold get_ in H1. cbn [nth_error bind mapM option_map] in H1. injection H1 as <-. cbn [nth_error] in Hm. congruence. }
  rewrite Em, float32_three_fifths in H. cbn [option_map nge] in H. apply rleb_true in H. unfold tolerance in H. lra.
Qed.

Example C53_case : exists rows, link_probs 2 2 the_same (lro_all 1 2 (fun _ _ => 1%R) (fun d _ => INR d)) tolerance
    [Some 2%R; Some (-1)%R] [0; 1] = Ok rows /\ map (map fst) rows = [[1]; [0; 1]].
Proof.
  eexists. split; [reflexivity|]. unfold lro_all, dot, vsum, tolerance. cbn [map seq rsum filter option_map nge].
  assert (rleb (2 - 1 / 10 ^ 9) (2 * (INR 0 * 1 + 0)) = false) as -> by (apply rleb_false; cbn; lra).
  assert (rleb (2 - 1 / 10 ^ 9) (2 * (INR 1 * 1 + 0)) = true) as -> by (apply rleb_true; cbn; lra).
  assert (rleb (-1 - 1 / 10 ^ 9) (2 * (INR 0 * 1 + 0)) = true) as -> by (apply rleb_true; cbn; lra).
  assert (rleb (-1 - 1 / 10 ^ 9) (2 * (INR 1 * 1 + 0)) = true) as -> by (apply rleb_true; cbn; lra).
  reflexivity.
Qed.

(** ** C120: TF-IDF similarity *)
Lemma vsum_sq_zero n v : vsum n (fun k => v k * v k)%R = 0%R -> forall k, k < n -> v k = 0%R.
Proof.
  intros H k Hk.
  assert (Hs : forall j, j < n -> (0 <= v j * v j)%R) by (intros; apply Rle_0_sqr).
  pose proof (vsum_in_le n (fun k => v k * v k)%R k Hs Hk) as Hle. rewrite H in Hle. specialize (Hs k Hk).
  apply Rsqr_0_uniq. unfold Rsqr. lra.
Qed.
Lemma cauchy_schwarz n x y : (dot n x y * dot n x y <= dot n x x * dot n y y)%R.
Proof.
  destruct (Req_EM_T (dot n y y) 0) as [E|E].
  - assert (dot n x y = 0%R) as ->; [|rewrite E; lra].
    unfold dot. rewrite (vsum_ext _ _ (fun _ => 0%R)); [rewrite vsum_const; ring|].
    intros k Hk. rewrite (vsum_sq_zero n y E k Hk). ring.
  - assert (Hp : (0 < dot n y y)%R).
    { assert (0 <= dot n y y)%R by (apply vsum_nonneg; intros; apply Rle_0_sqr). lra. }
    set (c := (dot n x y / dot n y y)%R).
    assert (H : (0 <= vsum n (fun k => (x k - c * y k) * (x k - c * y k)))%R) by (apply vsum_nonneg; intros; apply Rle_0_sqr).
    rewrite (vsum_ext _ _ (fun k => (x k * x k + (c * c * (y k * y k)) + (- 2 * c) * (x k * y k))%R)) in H by (intros; ring).
    rewrite !vsum_plus, !vsum_scale in H. fold (dot n x x) (dot n y y) (dot n x y) in H.
    assert (E2 : (dot n x x + c * c * dot n y y + -2 * c * dot n x y = dot n x x - dot n x y * dot n x y / dot n y y)%R).
    { unfold c. field. exact E. }
    rewrite E2 in H. apply (Rmult_le_compat_r (dot n y y)) in H; [|lra].
    rewrite Rmult_0_l, Rmult_minus_distr_r in H. unfold Rdiv in H. rewrite Rmult_assoc, Rinv_l, Rmult_1_r in H by exact E. lra.
Qed.
Lemma row_norm_dot T reps d : row_norm T reps d = sqrt (dot T (reps d) (reps d)).
Proof. unfold row_norm, dot. f_equal. apply vsum_ext. intros. apply Rabs_pos_eq, Rle_0_sqr. Qed.
Lemma dot_sq_nonneg T x : (0 <= dot T x x)%R.
Proof. apply vsum_nonneg. intros. apply Rle_0_sqr. Qed.

Lemma tfidf_all_some T a b s d x : tfidf_all T a b s d = Some x ->
  (0 < row_norm T a s)%R /\ (0 < row_norm T b d)%R /\ x = (dot T (b d) (a s) / row_norm T b d / row_norm T a s)%R.
Proof.
  unfold tfidf_all, ndiv. pose proof (row_norm_nonneg T a s). pose proof (row_norm_nonneg T b d).
  destruct (Req_EM_T (row_norm T b d) 0); [discriminate|]. destruct (Req_EM_T (row_norm T a s) 0); [discriminate|].
  injection 1 as <-. repeat split; lra.
Qed.

(** The cosine lies between -1 and 1 for any two representations. *)
Theorem C120_cosine T a b s d x : tfidf_all T a b s d = Some x -> (-1 <= x <= 1)%R.
Proof.
  intros (Ha & Hb & ->)%tfidf_all_some. set (na := row_norm T a s) in *. set (nb := row_norm T b d) in *.
  assert (Hc : (dot T (b d) (a s) * dot T (b d) (a s) <= (na * nb) * (na * nb))%R).
  { eapply Rle_trans; [apply cauchy_schwarz|]. apply Req_le. unfold na, nb. rewrite !row_norm_dot.
    replace (sqrt (dot T (a s) (a s)) * sqrt (dot T (b d) (b d)) * (sqrt (dot T (a s) (a s)) * sqrt (dot T (b d) (b d))))%R
      with ((sqrt (dot T (a s) (a s)) * sqrt (dot T (a s) (a s))) * (sqrt (dot T (b d) (b d)) * sqrt (dot T (b d) (b d))))%R by ring.
    rewrite !sqrt_sqrt by apply dot_sq_nonneg. ring. }
  assert (Hp : (0 < na * nb)%R) by (apply Rmult_lt_0_compat; lra).
  replace (dot T (b d) (a s) / nb / na)%R with (dot T (b d) (a s) / (na * nb))%R by (field; lra).
  assert (Habs : (- (na * nb) <= dot T (b d) (a s) <= na * nb)%R) by (split; nra).
  split.
  - apply (Rmult_le_reg_r (na * nb)); [exact Hp|]. unfold Rdiv. rewrite Rmult_assoc, Rinv_l by lra. lra.
  - apply (Rmult_le_reg_r (na * nb)); [exact Hp|]. unfold Rdiv. rewrite Rmult_assoc, Rinv_l by lra. lra.
Qed.

(** Between documents of one corpus it is not negative, is the same both ways and is
    one for documents with the same proportions of words. *)
Theorem C120_same_corpus D T words s d x :
  (forall i t, i < D -> t < T -> (0 <= words i t)%R) -> s < D -> d < D ->
  let reps := tfidf recip_float D T words in
  tfidf_all T reps reps s d = Some x -> (0 <= x <= 1)%R /\ tfidf_all T reps reps d s = Some x.
Proof.
  intros Hw Hs Hd reps H. pose proof (C120_cosine _ _ _ _ _ _ H) as Hc.
  destruct (tfidf_all_some _ _ _ _ _ _ H) as (Ha & Hb & E).
  split.
  - split; [|apply Hc]. rewrite E.
    assert (Hdot : (0 <= dot T (reps d) (reps s))%R).
    { apply vsum_nonneg. intros t Ht. unfold reps, tfidf.
      assert (Hr : forall i, i < D -> (0 <= recip_float (vsum T (words i)))%R).
      { intros i Hi. unfold recip_float. destruct (Req_EM_T (vsum T (words i)) 0) as [->|Hne]; [rewrite Rinv_0; lra|].
        left. apply Rinv_0_lt_compat. assert (0 <= vsum T (words i))%R by (apply vsum_nonneg; intros; apply Hw; assumption). lra. }
      replace (recip_float (vsum T (words d)) * words d t * idf D words t * (recip_float (vsum T (words s)) * words s t * idf D words t))%R
        with ((recip_float (vsum T (words d)) * words d t) * (recip_float (vsum T (words s)) * words s t) * (idf D words t * idf D words t))%R by ring.
      apply Rmult_le_pos; [apply Rmult_le_pos; apply Rmult_le_pos; auto|apply Rle_0_sqr]. }
    unfold Rdiv. repeat apply Rmult_le_pos; try exact Hdot; left; apply Rinv_0_lt_compat; assumption.
  - unfold tfidf_all, ndiv. destruct (Req_EM_T (row_norm T reps s) 0); [lra|]. destruct (Req_EM_T (row_norm T reps d) 0); [lra|].
    f_equal. rewrite E, dot_comm. field. lra.
Qed.

Theorem C120_same_proportions D T words s d c x :
  (0 < c)%R -> (forall t, t < T -> words d t = (c * words s t)%R) ->
  let reps := tfidf recip_float D T words in
  tfidf_all T reps reps s d = Some x -> x = 1%R.
Proof.
  intros Hc Hw reps H. destruct (tfidf_all_some _ _ _ _ _ _ H) as (Ha & Hb & ->).
  assert (Hl : vsum T (words d) = (c * vsum T (words s))%R).
  { rewrite <- vsum_scale. apply vsum_ext. exact Hw. }
  assert (Er : forall t, t < T -> reps d t = reps s t).
  { intros t Ht. unfold reps, tfidf, recip_float. rewrite Hl, (Hw t Ht).
    destruct (Req_EM_T (vsum T (words s)) 0) as [E|E].
    - exfalso. apply (Rlt_irrefl 0). rewrite <- (zero_norm T reps s) at 2; [exact Ha|].
      intros t' _. unfold reps, tfidf, recip_float. rewrite E, Rinv_0. ring.
    - rewrite Rinv_mult. field. split; [exact E|lra]. }
  assert (En : row_norm T reps d = row_norm T reps s).
  { unfold row_norm. f_equal. apply vsum_ext. intros t Ht. rewrite (Er t Ht). reflexivity. }
  assert (Ed : dot T (reps d) (reps s) = (row_norm T reps s * row_norm T reps s)%R).
  { rewrite row_norm_dot, sqrt_sqrt by apply dot_sq_nonneg. apply vsum_ext. intros t Ht. rewrite (Er t Ht). reflexivity. }
  rewrite En, Ed. field. lra.
Qed.

(** A held-out query is weighted by its own document frequencies: a word that all the
    query's documents contain has a negative weight there, so that the similarity may
    be negative, against the docstring of lines 349-353. *)
Definition query_word : mat := fun _ _ => 1%R.
Definition train_words : mat := fun d t => match d, t with 0, 0 => 1%R | 0, _ => 0%R | _, 0 => 0%R | _, _ => 1%R end.
Theorem C120_held_out_queries_refuted :
  exists D Q T train query src dst x,
    (forall d t, d < D -> t < T -> (0 <= train d t)%R) /\ (forall d t, d < Q -> t < T -> (0 <= query d t)%R) /\
    src < Q /\ dst < D /\
    tfidf_all T (tfidf recip_float Q T query) (tfidf recip_float D T train) src dst = Some x /\ (x < 0)%R.
Proof.
  exists 3, 1, 1, train_words, query_word, 0, 0.
  assert (Eq : tfidf recip_float 1 1 query_word 0%nat 0%nat = (- ln 2)%R).
  { unfold tfidf, recip_float, idf, doc_count, vsum, query_word. cbn [seq map rsum INR].
    destruct (Req_EM_T 1 0); [lra|]. replace (1 / (1 + 0 + 1))%R with (/ 2)%R by field.
    rewrite ln_Rinv by lra. replace (/ (1 + 0))%R with 1%R by field. ring. }
  assert (Et : tfidf recip_float 3 1 train_words 0%nat 0%nat = ln (3 / 2)).
  { unfold tfidf, recip_float, idf, doc_count, vsum, train_words. cbn [seq map rsum].
    destruct (Req_EM_T 1 0); [lra|]. destruct (Req_EM_T 0 0); [|lra].
    replace (INR 3 / (1 + (0 + (0 + 0)) + 1))%R with (3 / 2)%R by (cbn; field).
    replace (/ (1 + 0))%R with 1%R by field. ring. }
  assert (H2 : (0 < ln 2)%R) by (rewrite <- ln_1; apply ln_increasing; lra).
  assert (H3 : (0 < ln (3 / 2))%R) by (rewrite <- ln_1; apply ln_increasing; lra).
  assert (Nq : row_norm 1 (tfidf recip_float 1 1 query_word) 0 = ln 2).
  { rewrite row_norm_dot. unfold dot, vsum. cbn [seq map rsum]. rewrite Eq.
    replace (- ln 2 * - ln 2 + 0)%R with (ln 2 * ln 2)%R by ring. apply sqrt_square. lra. }
  assert (Nt : row_norm 1 (tfidf recip_float 3 1 train_words) 0 = ln (3 / 2)).
  { rewrite row_norm_dot. unfold dot, vsum. cbn [seq map rsum]. rewrite Et.
    rewrite Rplus_0_r. apply sqrt_square. lra. }
  exists (-1)%R. split; [|split; [|split; [lia|split; [lia|split; [|lra]]]]].
  - intros d t _ _. unfold train_words. destruct d, t; lra.
  - intros d t _ _. unfold query_word. lra.
  - unfold tfidf_all, ndiv. rewrite Nq, Nt. destruct (Req_EM_T (ln (3 / 2)) 0); [lra|]. destruct (Req_EM_T (ln 2) 0); [lra|].
    f_equal. unfold dot, vsum. cbn [seq map rsum]. rewrite Eq, Et. field. lra.
Qed.

(** np.reciprocal of whole numbers is zero: counts of an integer dtype leave every
    document but those of a single word without a representation, and it is then
    similar to nothing, not even to itself. *)
Theorem C120_integer_counts_refuted D T words a s d :
  vsum T (words d) <> 1%R -> tfidf_all T a (tfidf recip_int D T words) s d = None.
Proof.
  intros H. apply tfidf_all_nan. left. apply zero_norm. intros t _. unfold tfidf, recip_int.
  destruct (Req_EM_T (vsum T (words d)) 1); [contradiction|]. ring.
Qed.

Example C120_case : tfidf_all 2 three_four three_four 0 1 = Some (3 / 5)%R /\ tfidf_all 2 three_four three_four 0 0 = Some 1%R.
Proof.
  split; [exact three_fifths_all|]. unfold tfidf_all, ndiv, dot, vsum. rewrite norm_0. cbn [seq map rsum three_four].
  destruct (Req_EM_T 5 0); [lra|]. f_equal. field.
Qed.
(** A corpus in which the similarities are defined. *)
Example C120_corpus_case : exists x, tfidf_all 1 (tfidf recip_float 3 1 train_words) (tfidf recip_float 3 1 train_words) 0 0 = Some x.
Proof.
  assert (Et : tfidf recip_float 3 1 train_words 0%nat 0%nat = ln (3 / 2)).
  { unfold tfidf, recip_float, idf, doc_count, vsum, train_words. cbn [seq map rsum].
    destruct (Req_EM_T 1 0); [lra|]. destruct (Req_EM_T 0 0); [|lra].
    replace (INR 3 / (1 + (0 + (0 + 0)) + 1))%R with (3 / 2)%R by (cbn; field).
    replace (/ (1 + 0))%R with 1%R by field. ring. }
  assert (H3 : (0 < ln (3 / 2))%R) by (rewrite <- ln_1; apply ln_increasing; lra).
  assert (Nt : row_norm 1 (tfidf recip_float 3 1 train_words) 0 = ln (3 / 2)).
  { rewrite row_norm_dot. unfold dot, vsum. cbn [seq map rsum]. rewrite Et.
    rewrite Rplus_0_r. apply sqrt_square. lra. }
  unfold tfidf_all, ndiv. rewrite Nt. destruct (Req_EM_T (ln (3 / 2)) 0); [lra|]. eauto.
Qed.

(** ** C121: the similarity of LDA topics *)
(** The Hellinger distance of two rows, up to the factor of the square root of two. *)
Definition hellinger (K : nat) (p q : vec) : R := sqrt (vsum K (fun k => (sqrt (p k) - sqrt (q k)) ^ 2)%R).

Lemma tiny_pos : (0 < tiny)%R.
Proof. unfold tiny. apply Rdiv_lt_0_compat; [lra|apply pow_lt; lra]. Qed.
Lemma sim_value K A B s d : sim_all K (lda_reps A) (lda_reps B) s d =
  Some (SQRT_TWO / Rmax (hellinger K (A s) (B d)) tiny)%R.
Proof.
  unfold sim_all, lda_reps, hellinger. cbv zeta.
  rewrite (vsum_ext K (fun k => (sqrt (A s k) - sqrt (B d k)) ^ 2)%R (fun k => (sqrt (A s k) - sqrt (B d k)) * (sqrt (A s k) - sqrt (B d k)))%R) by (intros; ring).
  set (n := sqrt _). unfold Rmax.
  destruct (rltb n tiny) eqn:El; [apply rltb_true in El|apply rltb_false in El]; destruct (Rle_dec n tiny); try reflexivity; [lra|].
  do 2 f_equal. lra.
Qed.
Lemma inv_anti a b c : (0 < c)%R -> (0 < a)%R -> (a <= b)%R -> (c / b <= c / a)%R.
Proof. intros. unfold Rdiv. apply Rmult_le_compat_l; [lra|]. apply Rinv_le_contravar; assumption. Qed.

(** The nearer the topics, the greater the similarity; the order is strict down to
    distances of 1E-30. *)
Theorem C121_order K A B s d1 d2 x1 x2 :
  sim_all K (lda_reps A) (lda_reps B) s d1 = Some x1 -> sim_all K (lda_reps A) (lda_reps B) s d2 = Some x2 ->
  ((hellinger K (A s) (B d1) <= hellinger K (A s) (B d2))%R -> (x2 <= x1)%R) /\
  ((tiny <= hellinger K (A s) (B d1))%R -> (hellinger K (A s) (B d1) < hellinger K (A s) (B d2))%R -> (x2 < x1)%R).
Proof.
  rewrite !sim_value. injection 1 as <-. injection 1 as <-. pose proof tiny_pos.
  assert (0 < SQRT_TWO)%R by (unfold SQRT_TWO; lra).
  set (h1 := hellinger K (A s) (B d1)). set (h2 := hellinger K (A s) (B d2)). split.
  - intros Hle. apply inv_anti; [assumption| |apply Rle_max_compat_r; exact Hle].
    eapply Rlt_le_trans; [exact tiny_pos|apply Rmax_r].
  - intros Ht Hlt. rewrite !Rmax_left by lra. unfold Rdiv. apply Rmult_lt_compat_l; [assumption|].
    apply Rinv_lt_contravar; [apply Rmult_lt_0_compat; lra|lra].
Qed.

(** Between distributions the distance is at most the square root of two, so that the
    similarity is never (noticeably) below one, and it is the same both ways. *)
Definition distribution (K : nat) (p : vec) : Prop := (forall k, k < K -> (0 <= p k)%R) /\ vsum K p = 1%R.
Theorem C121_range K A B s d x :
  distribution K (A s) -> distribution K (B d) ->
  sim_all K (lda_reps A) (lda_reps B) s d = Some x ->
  (SQRT_TWO / sqrt 2 <= x <= SQRT_TWO / tiny)%R /\
  sim_all K (lda_reps B) (lda_reps A) d s = Some x /\
  ((forall k, k < K -> A s k = B d k) -> x = (SQRT_TWO / tiny)%R).
Proof.
  intros [Ha1 Ha2] [Hb1 Hb2]. rewrite !sim_value. injection 1 as <-. pose proof tiny_pos as Ht.
  assert (Hs : (0 < SQRT_TWO)%R) by (unfold SQRT_TWO; lra).
  assert (Hh : (hellinger K (A s) (B d) <= sqrt 2)%R).
  { unfold hellinger. apply sqrt_le_1_alt.
    rewrite (vsum_ext _ _ (fun k => (sqrt (A s k) * sqrt (A s k) + sqrt (B d k) * sqrt (B d k) + (-2) * (sqrt (A s k) * sqrt (B d k)))%R)) by (intros; ring).
    rewrite !vsum_plus, vsum_scale.
    rewrite (vsum_ext _ (fun k => sqrt (A s k) * sqrt (A s k))%R (A s)) by (intros; apply sqrt_sqrt; auto).
    rewrite (vsum_ext _ (fun k => sqrt (B d k) * sqrt (B d k))%R (B d)) by (intros; apply sqrt_sqrt; auto).
    rewrite Ha2, Hb2. assert (0 <= vsum K (fun k => sqrt (A s k) * sqrt (B d k)))%R by (apply vsum_nonneg; intros; apply Rmult_le_pos; apply sqrt_pos). lra. }
  assert (H2 : (1 <= sqrt 2)%R) by (rewrite <- sqrt_1 at 1; apply sqrt_le_1_alt; lra).
  assert (Htl : (tiny <= 1)%R).
  { unfold tiny. apply (Rmult_le_reg_r (10 ^ 30)); [apply pow_lt; lra|]. unfold Rdiv. rewrite Rmult_assoc, Rinv_l by (apply pow_nonzero; lra).
    rewrite Rmult_1_r, Rmult_1_l. apply pow_R1_Rle. lra. }
  split; [split|split].
  - apply inv_anti; [exact Hs|eapply Rlt_le_trans; [exact Ht|apply Rmax_r]|]. apply Rmax_lub; lra.
  - apply inv_anti; [exact Hs|exact Ht|apply Rmax_r].
  - do 3 f_equal. unfold hellinger. f_equal. apply vsum_ext. intros. ring.
  - intros He. f_equal. unfold hellinger. rewrite (vsum_ext _ _ (fun _ => 0%R)) by (intros k Hk; rewrite (He k Hk); ring).
    rewrite vsum_const, Rmult_0_r, sqrt_0. apply Rmax_right. lra.
Qed.

Example C121_case : exists A x, distribution 2 (A 0%nat) /\ distribution 2 (A 1%nat) /\
  sim_all 2 (lda_reps A) (lda_reps A) 0 1 = Some x /\ x = (SQRT_TWO / sqrt 2)%R.
Proof.
  exists disjoint_words. rewrite sim_value. eexists. split; [|split; [|split; [reflexivity|]]].
  - split; [intros; unfold disjoint_words; destruct (_ =? _); lra|]. unfold vsum, disjoint_words. cbn [seq map rsum Nat.eqb]. ring.
  - split; [intros; unfold disjoint_words; destruct (_ =? _); lra|]. unfold vsum, disjoint_words. cbn [seq map rsum Nat.eqb]. ring.
  - f_equal. unfold hellinger, vsum, disjoint_words. cbn [seq map rsum Nat.eqb]. rewrite sqrt_0, sqrt_1.
    replace ((1 - 0) ^ 2 + ((0 - 1) ^ 2 + 0))%R with 2%R by ring. apply Rmax_left.
    assert (H2 : (1 <= sqrt 2)%R) by (rewrite <- sqrt_1 at 1; apply sqrt_le_1_alt; lra).
    unfold tiny. apply Rle_trans with 1%R; [|exact H2].
    apply (Rmult_le_reg_r (10 ^ 30)); [apply pow_lt; lra|]. unfold Rdiv. rewrite Rmult_assoc, Rinv_l by (apply pow_nonzero; lra).
    rewrite Rmult_1_r, Rmult_1_l. apply pow_R1_Rle. lra.
Qed.

(** ** C122: the scores of the models of in- and out-topics *)
Lemma vsoftmax_pos n v k : 0 < n -> (0 < vsoftmax n v k)%R.
Proof.
  intros Hn. unfold vsoftmax. apply Rdiv_lt_0_compat; [apply exp_pos|]. apply vsum_pos; [exact Hn|]. intros; apply exp_pos.
Qed.
Lemma vsoftmax_sum n v : 0 < n -> vsum n (vsoftmax n v) = 1%R.
Proof.
  intros Hn. unfold vsoftmax, Rdiv. rewrite vsum_scale_r. apply Rinv_r.
  apply Rgt_not_eq, vsum_pos; [exact Hn|]. intros; apply exp_pos.
Qed.
(** For every document of origin the scores of all targets are a distribution. *)
Theorem C122_scores_are_a_distribution K D outMeans inMeans src : 0 < K -> 0 < D ->
  exists p : vec, (forall dst, dst < D -> mtm_all K D outMeans inMeans src dst = Some (p dst) /\ (0 < p dst)%R) /\
    vsum D p = 1%R.
Proof.
  intros HK HD. exists (fun dst => dot K (col_softmax D inMeans dst) (vsoftmax K (outMeans src))). split.
  - intros dst _. split; [reflexivity|]. apply vsum_pos; [exact HK|]. intros k _.
    apply Rmult_lt_0_compat; apply vsoftmax_pos; assumption.
  - unfold dot. rewrite vsum_swap.
    rewrite (vsum_ext _ _ (vsoftmax K (outMeans src))); [apply vsoftmax_sum; exact HK|].
    intros k _. rewrite vsum_scale_r. unfold col_softmax. rewrite vsoftmax_sum by exact HD. ring.
Qed.
Example C122_case : mtm_all 1 2 (fun _ _ => 0%R) (fun _ _ => 0%R) 0 1 = Some (/ 2)%R.
Proof.
  unfold mtm_all, dot, col_softmax, vsoftmax, vmax, vsum. cbn [seq map rsum fold_left].
  rewrite Rmax_left by lra. rewrite Rminus_0_r, exp_0. f_equal. field.
Qed.

Print Assumptions C52_each_link_once.
Print Assumptions C52_only_links.
Print Assumptions C52_unsorted_rows_refuted.
Print Assumptions C53_lro.
Print Assumptions C53_similar_topics.
Print Assumptions C53_mtm.
Print Assumptions C53_rtm.
Print Assumptions C53_tfidf.
Print Assumptions C53_tfidf_zero_weights_refuted.
Print Assumptions C53_single_precision_refuted.
Print Assumptions C120_cosine.
Print Assumptions C120_same_corpus.
Print Assumptions C120_same_proportions.
Print Assumptions C120_held_out_queries_refuted.
Print Assumptions C120_integer_counts_refuted.
Print Assumptions C121_order.
Print Assumptions C121_range.
Print Assumptions C122_scores_are_a_distribution.
