(** * Proofs about vec-transpose, csr_indices and the sparse kernels. *)
From Coq Require Import List ZArith Arith Bool Lia Permutation.
From Verif Require Import Base VecModel VecSpec.
Import ListNotations.
Open Scope nat_scope.

(** ** Lists *)
Lemma slice__length {A} (l : list A) a b : b <= length l -> length (slice_ l a b) = b - a.
Proof. intros. unfold slice_. rewrite firstn_length, skipn_length. lia. Qed.

Lemma nth_error_slice {A} (l : list A) a b k : k < b - a -> nth_error (slice_ l a b) k = nth_error l (a + k).
Proof.
  intros H. unfold slice_. revert l k b H. induction a as [|a IH]; intros l k b H.
  - cbn [skipn Nat.add]. rewrite Nat.sub_0_r in *. revert l k H. induction b as [|b IHb]; intros [|x l] [|k] H; cbn; auto; try lia.
    apply IHb. lia.
  - destruct l as [|x l]; [rewrite skipn_nil, firstn_nil; destruct k; reflexivity|]. cbn [skipn Nat.add nth_error].
    replace (b - S a) with (Nat.pred b - a) by lia. apply IH. lia.
Qed.

Lemma nth_error_combine' {A B} (l : list A) (r : list B) k a b :
  nth_error l k = Some a -> nth_error r k = Some b -> nth_error (combine l r) k = Some (a, b).
Proof. revert r k; induction l; intros [|y r] [|k] H1 H2; cbn in *; try discriminate; [congruence|eauto]. Qed.

Lemma skipn_cons_nth {A} (l : list A) k a : nth_error l k = Some a -> skipn k l = a :: skipn (k + 1) l.
Proof.
  revert k; induction l; intros [|k] H; cbn in *; try discriminate; [congruence|]. apply IHl. exact H.
Qed.

Lemma set_at_length {A} (l : list A) i a : length (set_at l i a) = length l.
Proof. revert i; induction l; intros [|i]; cbn; auto. Qed.
Lemma set_at_nth {A} (l : list A) i a j : i < length l ->
  nth_error (set_at l i a) j = if i =? j then Some a else nth_error l j.
Proof.
  revert i j; induction l; intros [|i] [|j] H; cbn in *; auto; try lia. apply IHl. lia.
Qed.
Lemma set_at_split {A} (l : list A) i a x : nth_error l i = Some x ->
  set_at l i a = firstn i l ++ a :: skipn (i + 1) l.
Proof.
  revert i; induction l as [|y l IH]; intros [|i] H; cbn in *; try discriminate; [reflexivity|].
  f_equal. apply IH. exact H.
Qed.

Lemma seq_snoc n : seq 0 (S n) = seq 0 n ++ [n].
Proof. rewrite <- (Nat.add_1_r n), seq_app. reflexivity. Qed.

(** ** Entries *)
Section Entries.
Context {V : Type}.
Implicit Type A : vcsr V.
Notation P A i := (nth i (vptr A) 0).

Lemma ptr_mono A i j : vwf A -> i <= j -> j <= vrows A -> P A i <= P A j.
Proof.
  intros (_ & _ & H & _) Hij. induction j as [|j IH]; intros Hj; [replace i with 0 by lia; lia|].
  destruct (Nat.eq_dec i (S j)) as [->|]; [lia|]. specialize (IH ltac:(lia) ltac:(lia)).
  specialize (H j ltac:(lia)). rewrite Nat.add_1_r in H. lia.
Qed.
Lemma ptr_le A i : vwf A -> i <= vrows A -> P A i <= length (vind A).
Proof.
  intros H Hi. pose proof (ptr_mono A i (vrows A) H Hi (le_n _)) as M.
  destruct H as (_ & _ & _ & E & _). lia.
Qed.

Lemma first_entries_snoc A n : first_entries A (S n) = first_entries A n ++
  map (fun '(c, v) => (n, c, v)) (slice_ (combine (vind A) (vdat A)) (P A n) (P A (n + 1))).
Proof. unfold first_entries. rewrite seq_snoc, map_app, concat_app. cbn [map concat]. rewrite app_nil_r. reflexivity. Qed.

Lemma first_entries_length A n : vwf A -> n <= vrows A -> length (first_entries A n) = P A n.
Proof.
  intros H. induction n as [|n IH]; intros Hn.
  - destruct H as (_ & E & _). rewrite E. reflexivity.
  - rewrite first_entries_snoc, app_length, map_length, IH by lia.
    pose proof (ptr_le A (n + 1) H ltac:(lia)). pose proof (ptr_mono A n (n + 1) H ltac:(lia) ltac:(lia)).
    assert (length (vdat A) = length (vind A)) as E by (destruct H as (_ & _ & _ & _ & E & _); exact E).
    rewrite slice__length by (rewrite combine_length; lia). replace (S n) with (n + 1) by lia. lia.
Qed.

Lemma first_entries_nth A n k : vwf A -> n <= vrows A -> k < P A n ->
  exists i c v, nth_error (first_entries A n) k = Some (i, c, v) /\ i < n /\ P A i <= k < P A (i + 1) /\
    nth_error (vind A) k = Some c /\ nth_error (vdat A) k = Some v.
Proof.
  intros H. induction n as [|n IH]; intros Hn Hk.
  - destruct H as (_ & E & _). lia.
  - rewrite first_entries_snoc. pose proof (first_entries_length A n H ltac:(lia)) as L.
    destruct (le_lt_dec (P A n) k) as [Hc|Hc].
    + rewrite nth_error_app2 by lia. rewrite L.
      pose proof (ptr_le A (n + 1) H ltac:(lia)) as Hb.
      assert (length (vdat A) = length (vind A)) as E by (destruct H as (_ & _ & _ & _ & E & _); exact E).
      replace (S n) with (n + 1) in Hk by lia.
      destruct (nth_error (vind A) k) as [c|] eqn:Ec; [|apply nth_error_None in Ec; lia].
      destruct (nth_error (vdat A) k) as [v|] eqn:Ev; [|apply nth_error_None in Ev; lia].
      exists n, c, v. split; [|repeat (split; [auto; lia|]); auto].
      rewrite nth_error_map, nth_error_slice by lia. replace (P A n + (k - P A n)) with k by lia.
      rewrite (nth_error_combine' _ _ _ _ _ Ec Ev). reflexivity.
    + destruct (IH ltac:(lia) Hc) as (i & c & v & H1 & H2 & H3). exists i, c, v.
      rewrite nth_error_app1 by lia. split; [exact H1|]. split; [lia|exact H3].
Qed.

Lemma entries_length A : vwf A -> length (entries A) = length (vind A).
Proof. intros H. unfold entries. rewrite first_entries_length by auto. destruct H as (_ & _ & _ & E & _). exact E. Qed.

Lemma entries_nth A k : vwf A -> k < length (vind A) ->
  exists i c v, nth_error (entries A) k = Some (i, c, v) /\ i < vrows A /\ P A i <= k < P A (i + 1) /\
    nth_error (vind A) k = Some c /\ nth_error (vdat A) k = Some v.
Proof.
  intros H Hk. apply first_entries_nth; auto. destruct H as (_ & _ & _ & E & _). lia.
Qed.

Lemma entries_bounds A i j v : vwf A -> In (i, j, v) (entries A) -> i < vrows A /\ j < vcols A.
Proof.
  intros H Hin. apply In_nth_error in Hin as (k & Hk).
  assert (k < length (vind A)) as Hl by (rewrite <- entries_length by exact H; apply nth_error_Some; congruence).
  destruct (entries_nth A k H Hl) as (i' & c & w & E & Hi & _ & Hc & _). rewrite E in Hk. injection Hk as -> -> ->.
  split; [exact Hi|]. destruct H as (_ & _ & _ & _ & _ & F). rewrite Forall_forall in F. apply F.
  eapply nth_error_In; eauto.
Qed.

Lemma entries_cols A : vwf A -> map (fun '(_, c, _) => c) (entries A) = vind A.
Proof.
  intros H. apply nth_error_ext. intros k. rewrite nth_error_map. destruct (le_lt_dec (length (vind A)) k) as [L|L].
  - rewrite (proj2 (nth_error_None (entries A) k)) by (rewrite entries_length by exact H; exact L).
    symmetry. apply nth_error_None. exact L.
  - destruct (entries_nth A k H L) as (i & c & v & -> & _ & _ & -> & _). reflexivity.
Qed.
Lemma entries_vals A : vwf A -> map (fun '(_, _, v) => v) (entries A) = vdat A.
Proof.
  intros H. assert (E : length (vdat A) = length (vind A)) by (destruct H as (_ & _ & _ & _ & E & _); exact E).
  apply nth_error_ext. intros k. rewrite nth_error_map. destruct (le_lt_dec (length (vind A)) k) as [L|L].
  - rewrite (proj2 (nth_error_None (entries A) k)) by (rewrite entries_length by exact H; exact L).
    symmetry. apply nth_error_None. lia.
  - destruct (entries_nth A k H L) as (i & c & v & -> & _ & _ & _ & ->). reflexivity.
Qed.

(** ** The vec-transpose loop *)
Lemma advance_spec A k i : vwf A -> i < vrows A -> P A i <= k < P A (i + 1) ->
  forall n r fuel, i - r = n -> r <= i -> n < fuel -> advance fuel (vptr A) r k = Ok i.
Proof.
  intros H Hi Hk. assert (Hlen : length (vptr A) = vrows A + 1).
  { destruct H as (Hne & _). unfold vrows. destruct (vptr A); [congruence|cbn; lia]. }
  induction n as [|n IH]; intros r fuel Hn Hr Hf; (destruct fuel as [|f]; [lia|]); cbn [advance]; unfold oob.
  - assert (r = i) as -> by lia. rewrite (nth_error_nth' _ 0) by lia. cbn [bind].
    destruct (Nat.leb_spec (P A (i + 1)) k); [lia|reflexivity].
  - rewrite (nth_error_nth' _ 0) by lia. cbn [bind].
    pose proof (ptr_mono A (r + 1) i H ltac:(lia) ltac:(lia)).
    destruct (Nat.leb_spec (P A (r + 1)) k); [|lia]. apply IH; lia.
Qed.

Lemma vt_loop_spec A p : vwf A -> forall n k r, length (vind A) - k = n -> k <= length (vind A) ->
  r < vrows A \/ k = length (vind A) -> P A r <= k ->
  vt_loop (vptr A) p (skipn k (vind A)) k r =
  Ok (map (fun '(i, c, _) => (c * p + i mod p, i / p)) (skipn k (entries A))).
Proof.
  intros H. induction n as [|n IH]; intros k r Hn Hk Hr HP.
  - rewrite !skipn_all2; [reflexivity|rewrite entries_length by exact H; lia|lia].
  - assert (Hk' : k < length (vind A)) by lia.
    destruct (entries_nth A k H Hk') as (i & c & v & E & Hi & Hb & Ec & Ev).
    rewrite (skipn_cons_nth _ _ _ E), (skipn_cons_nth _ _ _ Ec). cbn [vt_loop map].
    destruct Hr as [Hr|Hr]; [|lia].
    assert (Hri : r <= i).
    { destruct (le_lt_dec r i); [assumption|]. pose proof (ptr_mono A (i + 1) r H ltac:(lia) ltac:(lia)). lia. }
    assert (Hlen : length (vptr A) = vrows A + 1).
    { destruct H as (Hne & _). unfold vrows. destruct (vptr A); [congruence|cbn; lia]. }
    rewrite (advance_spec A k i H Hi Hb (i - r)) by lia. cbn [bind].
    rewrite (IH (k + 1) i) by lia. reflexivity.
Qed.

(** ** tocsr *)
Lemma slice_concat {X} (B : nat -> list X) n i : i < n ->
  slice_ (concat (map B (seq 0 n))) (sumN (map (fun q => length (B q)) (seq 0 i)))
         (sumN (map (fun q => length (B q)) (seq 0 (i + 1)))) = B i.
Proof.
  intros Hi. replace n with (i + (1 + (n - S i))) by lia. rewrite !seq_app, !map_app, !concat_app, !sumN_app.
  cbn [Nat.add seq map concat sumN]. rewrite app_nil_r, Nat.add_0_r.
  assert (L : forall s l, length (concat (map B (seq s l))) = sumN (map (fun q => length (B q)) (seq s l))).
  { clear. intros s l. revert s. induction l; intros s; cbn; [reflexivity|]. rewrite app_length, IHl. reflexivity. }
  unfold slice_. rewrite skipn_app, skipn_all2 by (rewrite L; lia). rewrite L, Nat.sub_diag. cbn [skipn app].
  replace (_ + length (B i) - _) with (length (B i)) by lia.
  rewrite firstn_app, firstn_all, Nat.sub_diag, firstn_O, app_nil_r. reflexivity.
Qed.

Lemma perm_by_key {X} (key : X -> nat) n l : Forall (fun x => key x < n) l ->
  Permutation (concat (map (fun r => filter (fun x => key x =? r) l) (seq 0 n))) l.
Proof.
  induction l as [|a l IH]; intros H.
  - clear. induction (seq 0 n); [reflexivity|exact IHl].
  - inversion H as [|? ? Ha Hl]; subst. specialize (IH Hl).
    refine (Permutation_trans _ (perm_skip a IH)). clear IH Hl H.
    replace n with (key a + (1 + (n - S (key a)))) by lia. rewrite !seq_app, !map_app, !concat_app.
    cbn [Nat.add seq map concat]. rewrite !app_nil_r. cbn [filter]. rewrite Nat.eqb_refl.
    assert (G : forall s len, (key a < s \/ s + len <= key a) ->
       concat (map (fun r => if key a =? r then a :: filter (fun x => key x =? r) l else filter (fun x => key x =? r) l) (seq s len)) =
       concat (map (fun r => filter (fun x => key x =? r) l) (seq s len))).
    { clear. intros s len Hs. f_equal. apply map_ext_in. intros r Hr. apply in_seq in Hr.
      destruct (Nat.eqb_spec (key a) r); [lia|reflexivity]. }
    rewrite (G 0), (G (key a + 1)) by lia. cbn [app]. symmetry. apply Permutation_middle.
Qed.

Lemma tocsr_spec rows cols (l : coo V) : (forall i j v, In (i, j, v) l -> i < rows /\ j < cols) ->
  exists B, tocsr rows cols l = Ok B /\ vwf B /\ vrows B = rows /\ vcols B = cols /\ Permutation (entries B) l.
Proof.
  intros H. unfold tocsr.
  assert (forallb (fun '(i, j, _) => (i <? rows) && (j <? cols))%bool l = true) as ->.
  { apply forallb_forall. intros [[i j] v] Hin. specialize (H i j v Hin). lia. }
  eexists. split; [reflexivity|].
  set (row := fun r => filter (fun '(i, _, _) => i =? r) l).
  set (Bl := fun r => map (fun '(_, j, v) => (j, v)) (row r)).
  set (S_ := fun i => sumN (map (fun q => length (row q)) (seq 0 i))).
  set (B := mkV _ _ _ _).
  assert (Hr : vrows B = rows) by (unfold vrows, B; cbn [vptr]; rewrite map_length, seq_length; lia).
  assert (HP : forall i, i <= rows -> nth i (vptr B) 0 = S_ i).
  { intros i Hi. unfold B. cbn [vptr]. apply nth_error_nth. rewrite nth_error_map.
    rewrite (nth_error_nth' _ 0) by (rewrite seq_length; lia). rewrite seq_nth by lia. reflexivity. }
  assert (HC : combine (vind B) (vdat B) = concat (map Bl (seq 0 rows))).
  { unfold B. cbn [vind vdat]. clear. induction (seq 0 rows) as [|r s IH]; [reflexivity|]. cbn [map concat].
    rewrite <- IH. clear IH. unfold Bl at 1. fold (row r). induction (row r) as [|[[i j] v] q IH]; [reflexivity|].
    cbn. f_equal. exact IH. }
  assert (Hlen : forall {X} (f : nat * nat * V -> X) n, length (concat (map (fun r => map f (row r)) (seq 0 n))) = S_ n).
  { intros X f n. unfold S_. induction (seq 0 n) as [|r s IH]; [reflexivity|]. cbn. rewrite app_length, map_length, IH. reflexivity. }
  assert (HSs : forall i, S_ (i + 1) = S_ i + length (row i)).
  { intros i. unfold S_. rewrite seq_app, map_app, sumN_app. cbn. lia. }
  split; [|split; [exact Hr|split; [reflexivity|]]].
  - unfold vwf. rewrite Hr. split; [|split; [|split; [|split; [|split]]]].
    + unfold B. cbn [vptr]. rewrite Nat.add_1_r. discriminate.
    + rewrite HP by lia. reflexivity.
    + intros i Hi. rewrite !HP by lia. rewrite HSs. lia.
    + rewrite HP by lia. unfold B. cbn [vind]. fold row. rewrite Hlen. reflexivity.
    + unfold B. cbn [vind vdat]. fold row. rewrite !Hlen. reflexivity.
    + unfold B. cbn [vind vcols]. apply Forall_forall. intros c Hc. apply in_concat in Hc as (x & Hx & Hc).
      apply in_map_iff in Hx as (r & <- & _). apply in_map_iff in Hc as ([[i j] v] & <- & Hin).
      apply filter_In in Hin as [Hin _]. apply (H i j v Hin).
  - assert (HE : entries B = concat (map row (seq 0 rows))).
    { unfold entries, first_entries. rewrite Hr, HC. f_equal. apply map_ext_in. intros i Hi. apply in_seq in Hi.
      rewrite !HP by lia.
      assert (forall n, S_ n = sumN (map (fun q => length (Bl q)) (seq 0 n))) as HSB.
      { intros n. unfold S_. f_equal. apply map_ext. intros q. unfold Bl. rewrite map_length. reflexivity. }
      rewrite !HSB, slice_concat by lia. unfold Bl. rewrite map_map.
      transitivity (map (fun x => x) (row i)); [|apply map_id]. apply map_ext_in. intros [[a b] v] Hin.
      unfold row in Hin. apply filter_In in Hin as [_ Hin]. apply Nat.eqb_eq in Hin as ->. reflexivity. }
    rewrite HE. unfold row.
    assert (HK : forall r, filter (fun '(i, _, _) => i =? r) l = filter (fun x => fst (fst x) =? r) l).
    { intros r. apply filter_ext. intros [[a b] c]. reflexivity. }
    rewrite (map_ext _ _ HK). apply perm_by_key. apply Forall_forall. intros [[i j] v] Hin. apply (H i j v Hin).
Qed.

(** Where an element goes. *)
Definition move (p : nat) (e : nat * nat * V) : nat * nat * V :=
  let '(i, j, v) := e in (j * p + i mod p, i / p, v).

Lemma vec_transpose_spec A p : vwf A -> 0 < p -> Nat.divide p (vrows A) ->
  exists B, sparse_vec_transpose A p = Ok B /\ vwf B /\ vrows B = vcols A * p /\ vcols B = vrows A / p /\
    Permutation (entries B) (map (move p) (entries A)).
Proof.
  intros H Hp Hd. unfold sparse_vec_transpose.
  destruct (Nat.eq_dec (vrows A) 0) as [Z0|Z0].
  - assert (length (vind A) = 0) as L.
    { destruct H as (_ & E0 & _ & E & _). rewrite Z0 in E. lia. }
    assert (vind A = []) as -> by (destruct (vind A); [reflexivity|discriminate]).
    cbn [vt_loop bind combine map].
    destruct (tocsr_spec (vcols A * p) (vrows A / p) (@nil (nat * nat * V))) as (B & E & W & R & C & Pm); [intros ? ? ? []|].
    exists B. split; [exact E|]. split; [exact W|]. split; [exact R|]. split; [exact C|]. rewrite Pm.
    unfold entries. rewrite Z0. reflexivity.
  - pose proof (vt_loop_spec A p H (length (vind A)) 0 0 ltac:(lia) ltac:(lia) ltac:(lia)) as E.
    assert (P A 0 = 0) as H2 by (destruct H as (_ & H2 & _); exact H2). rewrite H2 in E. specialize (E (le_n 0)).
    cbn [skipn] in E. rewrite E. cbn [bind].
    assert (HM : map (fun '(r, c, v) => (r, c, v)) (combine (map (fun '(i, c, _) => (c * p + i mod p, i / p)) (entries A)) (vdat A))
       = map (move p) (entries A)).
    { rewrite <- (entries_vals A H). clear. induction (entries A) as [|[[i j] v] l IH]; [reflexivity|]. cbn. f_equal. exact IH. }
    rewrite HM.
    destruct (tocsr_spec (vcols A * p) (vrows A / p) (map (move p) (entries A))) as (B & EB & W & R & C & Pm).
    { intros i j v Hin. apply in_map_iff in Hin as ([[i0 j0] v0] & [= <- <- <-] & Hin).
      apply (entries_bounds A _ _ _ H) in Hin as [Hi Hj]. destruct Hd as [q Hq]. rewrite Hq, Nat.div_mul by lia.
      pose proof (Nat.mod_upper_bound i0 p ltac:(lia)). split; [nia|]. apply Nat.div_lt_upper_bound; lia. }
    exists B. auto.
Qed.

Lemma move_move p e : 0 < p -> move p (move p e) = e.
Proof.
  destruct e as [[i j] v]. intros Hp. unfold move.
  assert ((j * p + i mod p) mod p = i mod p) as ->.
  { rewrite Nat.add_comm, Nat.mod_add, Nat.mod_mod by lia. reflexivity. }
  assert ((j * p + i mod p) / p = j) as ->.
  { rewrite Nat.div_add_l by lia. rewrite (Nat.div_small (i mod p)) by (apply Nat.mod_upper_bound; lia). lia. }
  pose proof (Nat.div_mod i p ltac:(lia)). do 2 f_equal. lia.
Qed.
End Entries.
Arguments move {V}.
