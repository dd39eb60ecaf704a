From Coq Require Import List ZArith Arith Bool Lia Permutation.
From Verif Require Import Base SparseModel.
Import ListNotations.

Lemma sget_app r1 r2 c : sget (r1 ++ r2) c = (sget r1 c + sget r2 c)%Z.
Proof. unfold sget. rewrite filter_app, map_app, sumZ_app. reflexivity. Qed.

Lemma sget_cons e r c :
  sget (e :: r) c = ((if (fst e =? c)%nat then snd e else 0) + sget r c)%Z.
Proof. unfold sget. simpl. destruct (fst e =? c); simpl; lia. Qed.

Lemma in_positions order c j : In j (positions order c) <-> nth_error order j = Some c.
Proof.
  unfold positions. rewrite where_In. split.
  - intros (a & H & E). apply Nat.eqb_eq in E. congruence.
  - intros H. exists c. rewrite Nat.eqb_refl. auto.
Qed.

Lemma positions_NoDup order c : NoDup (positions order c).
Proof. apply where_NoDup. Qed.

Lemma sget_map_pos ps v j : NoDup ps ->
  sget (map (fun i => (i, v)) ps) j = (if in_dec Nat.eq_dec j ps then v else 0%Z).
Proof.
  intros Hnd; induction Hnd as [|i ps Hi Hnd IH]; [reflexivity|].
  cbn [map]. rewrite sget_cons, IH. cbn [fst snd].
  destruct (Nat.eqb_spec i j) as [->|Hne].
  - destruct (in_dec Nat.eq_dec j ps); [contradiction|].
    destruct (in_dec Nat.eq_dec j (j :: ps)) as [|N]; [lia|]. exfalso; apply N; left; auto.
  - destruct (in_dec Nat.eq_dec j ps) as [I|I];
      destruct (in_dec Nat.eq_dec j (i :: ps)) as [I'|I']; simpl in *; try lia; exfalso.
    + apply I'; right; assumption.
    + destruct I' as [|]; auto.
Qed.

Lemma sget_select_cols order r j :
  sget (select_cols_row order r) j
  = match nth_error order j with Some c => sget r c | None => 0%Z end.
Proof.
  induction r as [|[c v] r IH].
  - cbn. destruct (nth_error order j); reflexivity.
  - cbn [select_cols_row flat_map]. fold (select_cols_row order r).
    rewrite sget_app, IH, sget_map_pos by apply positions_NoDup. cbn [fst snd].
    destruct (in_dec Nat.eq_dec j (positions order c)) as [I|I].
    + apply in_positions in I. rewrite I, sget_cons. cbn [fst snd]. rewrite Nat.eqb_refl. reflexivity.
    + destruct (nth_error order j) as [c'|] eqn:E; [|lia].
      rewrite sget_cons. cbn [fst snd]. destruct (Nat.eqb_spec c c') as [->|]; [|lia].
      exfalso. apply I. apply in_positions. assumption.
Qed.

Lemma row_sum_app a b : row_sum (a ++ b) = (row_sum a + row_sum b)%Z.
Proof. unfold row_sum. rewrite map_app. apply sumZ_app. Qed.

Lemma sum_positions order c k v :
  sumZ (map snd (map (fun j : nat => (j, v)) (where_from (fun o => o =? c) k order)))
  = sumZ (map (fun o => if c =? o then v else 0%Z) order).
Proof.
  revert k; induction order as [|o order IH]; intros k; simpl; [reflexivity|].
  rewrite (Nat.eqb_sym c o). destruct (o =? c); simpl; rewrite IH; lia.
Qed.

Lemma row_sum_select_cols order r :
  row_sum (select_cols_row order r) = sumZ (map (sget r) order).
Proof.
  induction r as [|[c v] r IH].
  - cbn. induction order; simpl; auto.
  - cbn [select_cols_row flat_map]. fold (select_cols_row order r).
    rewrite row_sum_app, IH. unfold row_sum, positions, where_. cbn [fst snd].
    rewrite sum_positions. clear IH.
    induction order as [|o order IH]; simpl; [reflexivity|].
    rewrite sget_cons. cbn [fst snd]. lia.
Qed.

(** Row sums in terms of the dense view. *)
Lemma row_sum_dense r n : Forall (fun e => fst e < n) r ->
  row_sum r = sumZ (map (sget r) (seq 0 n)).
Proof.
  induction r as [|[c v] r IH]; intros H.
  - cbn. induction (seq 0 n) as [|x s IHs]; simpl; auto.
  - inversion H as [|? ? Hc Hr]; subst. cbn [fst] in Hc.
    change (row_sum ((c, v) :: r)) with (v + row_sum r)%Z. rewrite (IH Hr).
    assert (G : forall s, NoDup s ->
       sumZ (map (sget ((c, v) :: r)) s)
       = ((if in_dec Nat.eq_dec c s then v else 0) + sumZ (map (sget r) s))%Z).
    { induction s as [|x s IHs]; intros Hnd; [reflexivity|].
      inversion Hnd; subst. cbn [map sumZ]. rewrite IHs by assumption.
      rewrite sget_cons. cbn [fst snd].
      destruct (Nat.eqb_spec c x) as [->|Hne].
      - destruct (in_dec Nat.eq_dec x s); [contradiction|].
        destruct (in_dec Nat.eq_dec x (x :: s)) as [|N]; [lia|]. exfalso; apply N; left; auto.
      - destruct (in_dec Nat.eq_dec c s) as [I|I];
          destruct (in_dec Nat.eq_dec c (x :: s)) as [I'|I']; simpl in *; try lia; exfalso.
        + apply I'; right; assumption.
        + destruct I'; auto. }
    rewrite G by apply seq_NoDup.
    destruct (in_dec Nat.eq_dec c (seq 0 n)) as [|N]; [reflexivity|].
    exfalso; apply N; apply in_seq; lia.
Qed.

Lemma select_rows_ok o m m' :
  select_rows o m = Ok m' <-> select o (srows m) = Ok (srows m') /\ scols m' = scols m.
Proof.
  unfold select_rows. destruct (select o (srows m)) as [rs|e]; simpl.
  - destruct m' as [rs' c']; simpl. split.
    + intros [= <- <-]; auto.
    + intros ([= ->] & ->); reflexivity.
  - split; [discriminate | intros ([=] & _)].
Qed.

Lemma select_cols_ok o m m' :
  select_cols o m = Ok m' <->
  Forall (fun j => j < scols m) o /\ srows m' = map (select_cols_row o) (srows m) /\ scols m' = length o.
Proof.
  unfold select_cols. destruct (forallb _ o) eqn:E.
  - assert (Forall (fun j => j < scols m) o).
    { apply Forall_forall. intros j Hj. rewrite forallb_forall in E. specialize (E j Hj). lia. }
    destruct m' as [rs' c']; simpl. split.
    + intros [= <- <-]; auto.
    + intros (_ & -> & ->); reflexivity.
  - split; [discriminate|]. intros (H & _). exfalso.
    rewrite Forall_forall in H.
    assert (forallb (fun j => j <? scols m) o = true); [|congruence].
    apply forallb_forall. intros j Hj. specialize (H j Hj). lia.
Qed.
