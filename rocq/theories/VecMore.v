(** * Proofs: csr_indices, the row-range kernels, the dense vec-transpose and
    the permutation matrix. *)
From Coq Require Import List ZArith Arith Bool Lia Permutation.
From Verif Require Import Base VecModel VecSpec VecProofs.
Import ListNotations.
Open Scope nat_scope.

Lemma skipn_sk {A} (l : list A) a b : skipn a (skipn b l) = skipn (b + a) l.
Proof. revert l; induction b; intros [|x l]; cbn; auto. apply skipn_nil. Qed.

Notation P A i := (nth i (vptr A) 0).

Lemma vptr_len {V} (A : vcsr V) : vwf A -> length (vptr A) = vrows A + 1.
Proof. intros (Hne & _). unfold vrows. destruct (vptr A); [congruence|cbn; lia]. Qed.
Lemma vwf_dat {V} (A : vcsr V) : vwf A -> length (vdat A) = length (vind A).
Proof. intros (_ & _ & _ & _ & E & _). exact E. Qed.
Lemma vwf_0 {V} (A : vcsr V) : vwf A -> P A 0 = 0.
Proof. intros (_ & E & _). exact E. Qed.
Lemma vwf_last {V} (A : vcsr V) : vwf A -> P A (vrows A) = length (vind A).
Proof. intros (_ & _ & _ & E & _). exact E. Qed.

(** ** csr_indices *)
Definition row_nos {V} (A : vcsr V) a n : list nat :=
  concat (map (fun i => repeat i (P A (i + 1) - P A i)) (seq a n)).

Lemma entries_rows {V} (A : vcsr V) n : vwf A -> n <= vrows A ->
  map (fun '(i, _, _) => i) (first_entries A n) = row_nos A 0 n.
Proof.
  intros H. induction n as [|n IH]; intros Hn; [reflexivity|].
  rewrite first_entries_snoc, map_app, IH by lia. unfold row_nos. rewrite seq_snoc, map_app, concat_app.
  cbn [map concat]. rewrite app_nil_r. f_equal. rewrite map_map.
  rewrite <- (slice__length (combine (vind A) (vdat A)) (P A n) (P A (n + 1))).
  - induction (slice_ _ _ _) as [|[c v] l IHl]; [reflexivity|]. cbn. f_equal. exact IHl.
  - rewrite combine_length, vwf_dat, Nat.min_id by exact H. apply ptr_le; auto; lia.
Qed.

Lemma row_nos_length {V} (A : vcsr V) a n : vwf A -> a + n <= vrows A -> length (row_nos A a n) = P A (a + n) - P A a.
Proof.
  intros H. revert a. induction n as [|n IH]; intros a Ha; unfold row_nos; cbn [seq map concat]; [rewrite Nat.add_0_r; cbn; lia|].
  rewrite app_length, repeat_length. change (length (concat _)) with (length (row_nos A (S a) n)). rewrite IH by lia.
  pose proof (ptr_mono A a (a + 1) H ltac:(lia) ltac:(lia)). pose proof (ptr_mono A (a + 1) (a + S n) H ltac:(lia) ltac:(lia)).
  replace (S a + n) with (a + S n) by lia. replace (S a) with (a + 1) by lia. lia.
Qed.

Lemma ci_loop_spec {V} (A : vcsr V) : vwf A -> forall n r rows, r + n = vrows A -> length rows = length (vind A) ->
  ci_loop (skipn r (vptr A)) r rows (P A r) = firstn (P A r) rows ++ row_nos A r n.
Proof.
  intros H. pose proof (vptr_len A H) as HL. induction n as [|n IH]; intros r rows Hr Hlen.
  - rewrite (skipn_cons_nth _ r (P A r)) by (apply nth_error_nth'; lia).
    rewrite skipn_all2 by lia. cbn [ci_loop row_nos seq map concat]. unfold row_nos. cbn. rewrite app_nil_r.
    replace r with (vrows A) by lia. rewrite vwf_last, <- Hlen, firstn_all by exact H. reflexivity.
  - rewrite (skipn_cons_nth _ r (P A r)) by (apply nth_error_nth'; lia).
    rewrite (skipn_cons_nth _ (r + 1) (P A (r + 1))) by (apply nth_error_nth'; lia).
    assert (HH : forall rows', length rows' = length (vind A) ->
      ci_loop (P A (r + 1) :: skipn (r + 1 + 1) (vptr A)) (r + 1) rows' (P A r + (P A (r + 1) - P A r)) =
      firstn (P A (r + 1)) rows' ++ row_nos A (r + 1) n).
    { intros rows' Hl. rewrite <- (skipn_cons_nth (vptr A) (r + 1)) by (apply nth_error_nth'; lia).
      pose proof (ptr_mono A r (r + 1) H ltac:(lia) ltac:(lia)).
      replace (P A r + (P A (r + 1) - P A r)) with (P A (r + 1)) by lia. apply IH; lia. }
    cbn [ci_loop]. cbn [ci_loop] in HH. rewrite HH; clear HH.
    + assert (row_nos A r (S n) = repeat r (P A (r + 1) - P A r) ++ row_nos A (r + 1) n) as ->.
      { unfold row_nos. cbn [seq map concat]. rewrite Nat.add_1_r. reflexivity. }
      rewrite app_assoc. f_equal.
      pose proof (ptr_mono A r (r + 1) H ltac:(lia) ltac:(lia)). pose proof (ptr_le A (r + 1) H ltac:(lia)).
      destruct (Nat.ltb_spec 0 (P A (r + 1) - P A r)) as [L|L].
      * unfold set_slice. rewrite app_assoc, firstn_app.
        assert (HX : length (firstn (P A r) rows ++ repeat r (P A (r + 1) - P A r)) = P A (r + 1))
          by (rewrite app_length, firstn_length, repeat_length; lia).
        rewrite HX, Nat.sub_diag, firstn_O, app_nil_r. apply firstn_all2. lia.
      * replace (P A (r + 1) - P A r) with 0 by lia. replace (P A (r + 1)) with (P A r) by lia. cbn. rewrite app_nil_r. reflexivity.
    + pose proof (ptr_mono A r (r + 1) H ltac:(lia) ltac:(lia)). pose proof (ptr_le A (r + 1) H ltac:(lia)).
      destruct (0 <? _); [|exact Hlen]. unfold set_slice. rewrite !app_length, firstn_length, repeat_length, skipn_length. lia.
Qed.

Lemma csr_indices_spec {V} (A : vcsr V) : vwf A ->
  csr_indices (vptr A) (vind A) = (map (fun '(i, _, _) => i) (entries A), map (fun '(_, j, _) => j) (entries A)).
Proof.
  intros H. unfold csr_indices. rewrite (entries_cols A H). f_equal. unfold entries. rewrite entries_rows by auto.
  pose proof (ci_loop_spec A H (vrows A) 0 (repeat 0 (length (vind A))) ltac:(lia) ltac:(apply repeat_length)) as E.
  rewrite vwf_0 in E by exact H. exact E.
Qed.

(** ** Kernels *)
Section Kernels.
Context {V W : Type} (op : nat -> nat -> V -> W).

Lemma kelems_spec ind dat B n : forall i (out : list W), length dat = length ind -> i + n <= length ind -> i + n <= length out ->
  kelems op ind dat B n i out =
  Ok (i + n, firstn i out ++ map (fun '(c, v) => op B c v) (slice_ (combine ind dat) i (i + n)) ++ skipn (i + n) out).
Proof.
  induction n as [|n IH]; intros i out Hd Hi Ho.
  - cbn [kelems]. rewrite Nat.add_0_r. unfold slice_. rewrite Nat.sub_diag. cbn [firstn map app]. rewrite firstn_skipn. reflexivity.
  - cbn [kelems]. unfold oob, oob_set.
    destruct (nth_error ind i) as [c|] eqn:Ec; [|apply nth_error_None in Ec; lia].
    destruct (nth_error dat i) as [v|] eqn:Ev; [|apply nth_error_None in Ev; lia].
    cbn [bind]. destruct (Nat.ltb_spec i (length out)); [|lia]. cbn [bind].
    rewrite IH by (rewrite ?set_at_length; lia). f_equal. f_equal; [lia|].
    destruct (nth_error out i) as [x|] eqn:Ex; [|apply nth_error_None in Ex; lia].
    rewrite (set_at_split _ _ _ _ Ex).
    assert (HF : length (firstn i out) = i) by (rewrite firstn_length; lia).
    rewrite firstn_app, HF. rewrite (firstn_all2 (n := i + 1)) by lia. replace (i + 1 - i) with 1 by lia. cbn [firstn].
    rewrite skipn_app, HF, (skipn_all2 (n := i + 1 + n)) by lia. replace (i + 1 + n - i) with (S n) by lia. cbn [skipn app].
    rewrite <- app_assoc. cbn [app]. f_equal. rewrite skipn_sk.
    unfold slice_. replace (i + S n - i) with (S n) by lia. replace (i + 1 + n - (i + 1)) with n by lia.
    rewrite (skipn_cons_nth (combine ind dat) i (c, v)) by (apply nth_error_combine'; assumption).
    cbn [firstn map app]. f_equal. f_equal. f_equal. lia.
Qed.

(** What the kernel writes for rows [a .. a+n): it walks the stored elements
    from the first one of the matrix, not the first one of the range. *)
Definition kwritten (A : vcsr V) start a n : list W :=
  concat (map (fun r => map (fun '(c, v) => op (r - start) c v)
    (slice_ (combine (vind A) (vdat A)) (P A r - P A start) (P A (r + 1) - P A start))) (seq a n)).

Lemma krows_before (A : vcsr V) start : vwf A -> forall n a rest i out, a + n <= start -> start <= vrows A ->
  krows op A start (seq a n ++ rest) 0 i out = krows op A start rest 0 i out.
Proof.
  intros H. pose proof (vptr_len A H). induction n as [|n IH]; intros a rest i out Ha Hs; [reflexivity|].
  cbn [seq app krows]. unfold oob. rewrite !(nth_error_nth' _ 0) by lia. cbn [bind].
  destruct (Nat.leb_spec start a); [lia|]. apply IH; lia.
Qed.

Lemma krows_spec (A : vcsr V) start : vwf A -> forall n a out, start <= a -> a + n <= vrows A ->
  P A (a + n) - P A start <= length out ->
  krows op A start (seq a n) (a - start) (P A a - P A start) out =
  Ok (firstn (P A a - P A start) out ++ kwritten A start a n ++ skipn (P A (a + n) - P A start) out).
Proof.
  intros H. pose proof (vptr_len A H) as HL. induction n as [|n IH]; intros a out Hs Ha Ho.
  - cbn [seq krows]. unfold kwritten. cbn [seq map concat app]. rewrite Nat.add_0_r, firstn_skipn. reflexivity.
  - cbn [seq krows]. unfold oob. rewrite !(nth_error_nth' _ 0) by lia. cbn [bind].
    destruct (Nat.leb_spec start a); [|lia].
    pose proof (ptr_mono A start a H ltac:(lia) ltac:(lia)) as M1.
    pose proof (ptr_mono A a (a + 1) H ltac:(lia) ltac:(lia)) as M2.
    pose proof (ptr_mono A (a + 1) (a + S n) H ltac:(lia) ltac:(lia)) as M3.
    pose proof (ptr_le A (a + S n) H ltac:(lia)) as M4. pose proof (vwf_dat A H) as HD.
    rewrite kelems_spec by lia. cbn [bind].
    replace (P A a - P A start + (P A (a + 1) - P A a)) with (P A (a + 1) - P A start) by lia.
    set (blk := map (fun '(c, v) => op (a - start) c v) (slice_ (combine (vind A) (vdat A)) (P A a - P A start) (P A (a + 1) - P A start))).
    set (out' := firstn _ out ++ blk ++ skipn _ out).
    assert (HB : length blk = P A (a + 1) - P A a).
    { unfold blk. rewrite map_length, slice__length by (rewrite combine_length; lia). lia. }
    assert (HF : length (firstn (P A a - P A start) out) = P A a - P A start) by (rewrite firstn_length; lia).
    assert (HO : length out' = length out) by (unfold out'; rewrite !app_length, HB, HF, skipn_length; lia).
    replace (a - start + 1) with (S a - start) by lia.
    replace (P A (a + 1) - P A start) with (P A (S a) - P A start) in * by (rewrite Nat.add_1_r; reflexivity).
    replace (S a) with (a + 1) at 1 2 by lia. rewrite Nat.add_1_r in *.
    rewrite IH by (rewrite ?HO; replace (S a + n) with (a + S n) by lia; lia).
    replace (S a + n) with (a + S n) by lia. f_equal.
    assert (kwritten A start a (S n) = blk ++ kwritten A start (S a) n) as ->.
    { unfold kwritten, blk. cbn [seq map concat]. rewrite Nat.add_1_r. reflexivity. }
    assert (HFB : length (firstn (P A a - P A start) out ++ blk) = P A (S a) - P A start) by (rewrite app_length; lia).
    unfold out'. rewrite (app_assoc (firstn _ out) blk).
    rewrite (skipn_app _ (firstn _ out ++ blk)), (firstn_app _ (firstn _ out ++ blk)).
    rewrite HFB, Nat.sub_diag, firstn_O, app_nil_r, firstn_all2, skipn_all2 by lia.
    rewrite <- !app_assoc. cbn [app]. rewrite skipn_sk.
    rewrite Nat.add_1_r. replace (P A (S a) - P A start + _) with (P A (a + S n) - P A start) by lia. reflexivity.
Qed.

Lemma range_kernel_spec (A : vcsr V) out start end_ : vwf A -> start <= end_ -> end_ <= vrows A ->
  P A end_ - P A start <= length out ->
  range_kernel op A out start end_ =
  Ok (kwritten A start start (end_ - start) ++ skipn (P A end_ - P A start) out).
Proof.
  intros H Hs He Ho. unfold range_kernel. replace end_ with (start + (end_ - start)) at 1 by lia. rewrite seq_app. cbn [Nat.add].
  rewrite (krows_before A start H start 0) by lia.
  pose proof (krows_spec A start H (end_ - start) start out (le_n _) ltac:(lia)) as E.
  rewrite !Nat.sub_diag in E. replace (start + (end_ - start)) with end_ in E by lia. rewrite E by exact Ho. reflexivity.
Qed.

Lemma kwritten_0 (A : vcsr V) n : vwf A -> kwritten A 0 0 n = map (fun '(i, c, v) => op i c v) (first_entries A n).
Proof.
  intros H. unfold kwritten, first_entries. rewrite concat_map, map_map. f_equal. apply map_ext. intros r.
  rewrite (vwf_0 A H), !Nat.sub_0_r, map_map. apply map_ext. intros [c v]. reflexivity.
Qed.
End Kernels.

(** ** Dense vec-transpose *)
Section Dense.
Context {V : Type} (A : nat -> nat -> V) (rows cols p : nat).

Definition dstep (out : res (list (list (option V)))) (ij : nat * nat) :=
  let '(i, j) := ij in
  do out <- out;
  do row <- oob out (j * p + i mod p);
  do row' <- oob_set row (i / p) (Some (A i j));
  oob_set out (j * p + i mod p) row'.

Definition shape (nr nc : nat) (out : list (list (option V))) : Prop :=
  length out = nr /\ Forall (fun r => length r = nc) out.
Definition cell (out : list (list (option V))) (r c : nat) : option (option V) :=
  match nth_error out r with Some row => nth_error row c | None => None end.

Lemma dstep_ok nr nc out i j : shape nr nc out -> j * p + i mod p < nr -> i / p < nc ->
  exists out', dstep (Ok out) (i, j) = Ok out' /\ shape nr nc out' /\
    forall r c, cell out' r c = if (r =? j * p + i mod p) && (c =? i / p) then Some (Some (A i j)) else cell out r c.
Proof.
  intros [Hl Hr] H1 H2. unfold dstep, oob, oob_set. cbn [bind].
  destruct (nth_error out (j * p + i mod p)) as [row|] eqn:E; [|apply nth_error_None in E; lia].
  assert (length row = nc) as Hrow by (rewrite Forall_forall in Hr; apply Hr; eapply nth_error_In; eauto).
  cbn [bind]. destruct (Nat.ltb_spec (i / p) (length row)); [|lia]. cbn [bind].
  destruct (Nat.ltb_spec (j * p + i mod p) (length out)); [|lia].
  eexists. split; [reflexivity|]. split.
  - split; [rewrite set_at_length; exact Hl|]. apply Forall_forall. intros x Hx. apply In_nth_error in Hx as (k & Hk).
    rewrite set_at_nth in Hk by lia. destruct (_ =? k).
    + injection Hk as <-. rewrite set_at_length. exact Hrow.
    + rewrite Forall_forall in Hr. apply Hr. eapply nth_error_In; eauto.
  - intros r c. unfold cell. rewrite set_at_nth by lia. rewrite (Nat.eqb_sym r).
    destruct (Nat.eqb_spec (j * p + i mod p) r) as [<-|]; [|reflexivity]. cbn [andb].
    rewrite set_at_nth by lia. rewrite (Nat.eqb_sym c), E. reflexivity.
Qed.

Lemma dense_fold nr nc cells : (forall i j, In (i, j) cells -> j * p + i mod p < nr /\ i / p < nc) -> 0 < p ->
  forall out, shape nr nc out ->
  exists out', fold_left dstep cells (Ok out) = Ok out' /\ shape nr nc out' /\
    (forall i j, In (i, j) cells -> cell out' (j * p + i mod p) (i / p) = Some (Some (A i j))) /\
    (forall r c, (forall i j, In (i, j) cells -> (r, c) <> (j * p + i mod p, i / p)) -> cell out' r c = cell out r c).
Proof.
  intros Hb Hp. induction cells as [|[i j] l IH]; intros out Hs.
  - exists out. split; [reflexivity|]. split; [exact Hs|]. split; [intros ? ? []|reflexivity].
  - destruct (Hb i j (or_introl eq_refl)) as [B1 B2].
    destruct (dstep_ok nr nc out i j Hs B1 B2) as (o1 & E1 & S1 & C1).
    destruct (IH (fun a b H => Hb a b (or_intror H)) o1 S1) as (o2 & E2 & S2 & C2 & C3).
    exists o2. cbn [fold_left]. rewrite E1. split; [exact E2|]. split; [exact S2|].
    assert (Inj : forall i' j', (j' * p + i' mod p, i' / p) = (j * p + i mod p, i / p) -> (i', j') = (i, j)).
    { intros i' j' [= E E']. pose proof (Nat.mod_upper_bound i p ltac:(lia)). pose proof (Nat.mod_upper_bound i' p ltac:(lia)).
      assert (j' = j) by nia. subst j'. assert (i' mod p = i mod p) by lia.
      pose proof (Nat.div_mod i p ltac:(lia)). pose proof (Nat.div_mod i' p ltac:(lia)). f_equal. nia. }
    split.
    + intros a b [[= <- <-]|Hin]; [|apply C2; exact Hin].
      destruct (in_dec (fun x y : nat * nat => ltac:(decide equality; apply Nat.eq_dec)) (i, j) l) as [Hl|Hl]; [apply C2; exact Hl|].
      rewrite C3, C1, !Nat.eqb_refl; [reflexivity|].
      intros a b Hin E. symmetry in E. apply Inj in E. injection E as -> ->. apply Hl. exact Hin.
    + intros r c Hn. rewrite C3 by (intros a b Hin; apply Hn; right; exact Hin). rewrite C1.
      specialize (Hn i j (or_introl eq_refl)).
      destruct (Nat.eqb_spec r (j * p + i mod p)); [|reflexivity]. destruct (Nat.eqb_spec c (i / p)); [congruence|reflexivity].
Qed.

Lemma shape_repeat nr nc : shape nr nc (repeat (repeat None nc) nr).
Proof.
  split; [apply repeat_length|]. apply Forall_forall. intros x Hx. apply repeat_spec in Hx as ->. apply repeat_length.
Qed.

Lemma vec_transpose_dense : 0 < p -> Nat.divide p rows ->
  exists out, vec_transpose A rows cols p = Ok out /\ shape (cols * p) (rows / p) out /\
    (forall i j, i < rows -> j < cols -> cell out (j * p + i mod p) (i / p) = Some (Some (A i j))) /\
    (forall r c, r < cols * p -> c < rows / p -> cell out r c = Some (Some (A (c * p + r mod p) (r / p)))).
Proof.
  intros Hp [q Hq]. unfold vec_transpose.
  assert (Hdiv : rows / p = q) by (rewrite Hq; apply Nat.div_mul; lia).
  destruct (dense_fold (cols * p) (rows / p) (list_prod (seq 0 rows) (seq 0 cols))) with (out := repeat (repeat (@None V) (rows / p)) (cols * p))
    as (out & E & S & C & _).
  - intros i j Hin. apply in_prod_iff in Hin as [Hi Hj]. apply in_seq in Hi, Hj.
    pose proof (Nat.mod_upper_bound i p ltac:(lia)). split; [nia|]. rewrite Hdiv. apply Nat.div_lt_upper_bound; lia.
  - exact Hp.
  - apply shape_repeat.
  - exists out. split; [exact E|]. split; [exact S|].
    assert (G : forall i j, i < rows -> j < cols -> cell out (j * p + i mod p) (i / p) = Some (Some (A i j))).
    { intros i j Hi Hj. apply C. apply in_prod_iff. rewrite !in_seq. lia. }
    split; [exact G|]. intros r c Hr Hc.
    pose proof (Nat.mod_upper_bound r p ltac:(lia)) as Hm.
    assert (r / p < cols) by (apply Nat.div_lt_upper_bound; lia).
    specialize (G (c * p + r mod p) (r / p) ltac:(nia) ltac:(lia)).
    assert ((c * p + r mod p) mod p = r mod p) as G1 by (rewrite Nat.add_comm, Nat.mod_add, Nat.mod_mod by lia; reflexivity).
    assert ((c * p + r mod p) / p = c) as G2.
    { rewrite Nat.div_add_l, (Nat.div_small (r mod p)) by lia. lia. }
    rewrite G1, G2 in G. pose proof (Nat.div_mod r p ltac:(lia)).
    replace (r / p * p + r mod p) with r in G by lia. exact G.
Qed.

Lemma fold_raise e cells : fold_left dstep cells (Raise e) = Raise e.
Proof. induction cells as [|[i j] l IH]; [reflexivity|]. exact IH. Qed.

(** The first cell of the ragged last rows lies outside the output. *)
Lemma vec_transpose_ragged : 0 < p -> ~ Nat.divide p rows -> 0 < cols -> vec_transpose A rows cols p = Raise MemoryOOB.
Proof.
  intros Hp Hnd Hc. unfold vec_transpose. pose proof (Nat.div_mod rows p ltac:(lia)) as HD.
  pose proof (Nat.mod_upper_bound rows p ltac:(lia)) as HM.
  assert (rows mod p <> 0) as Hnz by (intros E; apply Hnd; exists (rows / p); lia).
  set (f := fun out ij => _). change f with dstep. clear f.
  set (b := rows / p) in *. replace rows with (p * b + (1 + (rows mod p - 1))) by lia. rewrite seq_app.
  assert (LP : forall (l1 l2 : list nat) (m : list nat), list_prod (l1 ++ l2) m = list_prod l1 m ++ list_prod l2 m).
  { clear. induction l1; intros; cbn; [reflexivity|]. rewrite IHl1, app_assoc. reflexivity. }
  rewrite LP, fold_left_app.
  destruct (dense_fold (cols * p) b (list_prod (seq 0 (p * b)) (seq 0 cols))) with (out := repeat (repeat (@None V) b) (cols * p))
    as (out & E & S & _).
  - intros i j Hin. apply in_prod_iff in Hin as [Hi Hj]. apply in_seq in Hi, Hj.
    pose proof (Nat.mod_upper_bound i p ltac:(lia)). split; [nia|]. apply Nat.div_lt_upper_bound; lia.
  - exact Hp.
  - apply shape_repeat.
  - rewrite E. cbn [Nat.add seq list_prod]. destruct cols as [|c]; [lia|]. cbn [seq map app fold_left dstep bind].
    assert ((p * b) mod p = 0) as -> by (rewrite Nat.mul_comm; apply Nat.mod_mul; lia).
    assert (p * b / p = b) as -> by (rewrite Nat.mul_comm; apply Nat.div_mul; lia).
    destruct S as [Sl Sf]. unfold oob at 1.
    destruct (nth_error out (0 * p + 0)) as [row|] eqn:Er; [|cbn [bind]; apply fold_raise].
    cbn [bind]. unfold oob_set at 1.
    assert (length row = b) as -> by (rewrite Forall_forall in Sf; apply Sf; eapply nth_error_In; eauto).
    rewrite Nat.ltb_irrefl. cbn [bind]. apply fold_raise.
Qed.
End Dense.

(** ** The permutation matrix *)

(** vec: the columns of a rows x cols matrix on top of each other. *)
Definition vecF {V} (M : nat -> nat -> V) (rows cols : nat) : list V :=
  map (fun k => M (k mod rows) (k / rows)) (seq 0 (rows * cols)).

Lemma vti_bound rows cols r : r < rows * cols -> r / cols + (r mod cols) * rows < rows * cols.
Proof.
  intros H. assert (cols <> 0) by nia. pose proof (Nat.mod_upper_bound r cols ltac:(lia)).
  assert (r / cols < rows) by (apply Nat.div_lt_upper_bound; lia). nia.
Qed.
Lemma vti_parts rows cols r : r < rows * cols ->
  (r / cols + (r mod cols) * rows) mod rows = r / cols /\ (r / cols + (r mod cols) * rows) / rows = r mod cols.
Proof.
  intros H. assert (cols <> 0) by nia. assert (rows <> 0) by nia.
  assert (r / cols < rows) by (apply Nat.div_lt_upper_bound; lia). split.
  - rewrite Nat.mod_add, Nat.mod_small by lia. reflexivity.
  - rewrite Nat.div_add, Nat.div_small by lia. lia.
Qed.
Lemma vti_inv rows cols r : r < rows * cols ->
  let s := r / cols + (r mod cols) * rows in s / rows + (s mod rows) * cols = r.
Proof.
  intros H s. destruct (vti_parts rows cols r H) as [E1 E2]. unfold s. rewrite E1, E2.
  assert (cols <> 0) by nia. pose proof (Nat.div_mod r cols ltac:(lia)). lia.
Qed.
Lemma vti_nth rows cols r : r < rows * cols -> nth r (vec_trans_indices rows cols) 0 = r / cols + (r mod cols) * rows.
Proof.
  intros H. unfold vec_trans_indices. apply nth_error_nth. rewrite nth_error_map.
  rewrite (nth_error_nth' _ 0) by (rewrite seq_length; lia). rewrite seq_nth by lia. reflexivity.
Qed.

Lemma vti_perm rows cols : Permutation (vec_trans_indices rows cols) (seq 0 (rows * cols)).
Proof.
  apply NoDup_Permutation_bis.
  - unfold vec_trans_indices. apply (NoDup_nth _ 0). intros i j. rewrite map_length, seq_length. intros Hi Hj.
    fold (vec_trans_indices rows cols). rewrite !vti_nth by assumption. intros E.
    rewrite <- (vti_inv rows cols i Hi), <- (vti_inv rows cols j Hj). cbv zeta. rewrite E. reflexivity.
  - unfold vec_trans_indices. rewrite map_length. lia.
  - intros x Hx. unfold vec_trans_indices in Hx. apply in_map_iff in Hx as (r & <- & Hr). apply in_seq in Hr.
    apply in_seq. pose proof (vti_bound rows cols r ltac:(lia)). split; [apply Nat.le_0_l|assumption].
Qed.

Lemma vti_apply {V} (d : V) (A : nat -> nat -> V) rows cols :
  map (fun ix => nth ix (vecF A rows cols) d) (vec_trans_indices rows cols) = vecF (fun j i => A i j) cols rows.
Proof.
  unfold vec_trans_indices. rewrite map_map. unfold vecF at 2. rewrite (Nat.mul_comm cols rows).
  apply map_ext_in. intros r Hr. apply in_seq in Hr.
  destruct (vti_parts rows cols r ltac:(lia)) as [E1 E2]. pose proof (vti_bound rows cols r ltac:(lia)) as HB.
  unfold vecF. rewrite nth_indep with (d' := A (0 mod rows) (0 / rows)) by (rewrite map_length, seq_length; exact HB).
  rewrite (map_nth (fun k => A (k mod rows) (k / rows))), seq_nth by exact HB. cbn [Nat.add]. rewrite E1, E2. reflexivity.
Qed.
