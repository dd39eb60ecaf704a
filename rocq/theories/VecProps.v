(** * Properties C30-C33 and C69-C71: vec-transpose, csr_indices, the sparse
    element-wise kernels. *)
From Coq Require Import List ZArith Arith Bool Lia Permutation.
From Verif Require Import Base VecModel VecSpec VecProofs VecMore.
Import ListNotations.
Open Scope nat_scope.

(** ** C30 *)
Definition A30 : vcsr Z := mkV [0; 2; 2; 3; 5] [0; 2; 1; 2; 0] [7%Z; 8%Z; 9%Z; 5%Z; 6%Z] 3.
Lemma A30_wf : vwf A30.
Proof.
  unfold vwf, A30, vrows. cbn. split; [discriminate|]. split; [reflexivity|]. split.
  - intros [|[|[|[|i]]]] H; cbn; lia.
  - split; [reflexivity|]. split; [reflexivity|]. repeat constructor.
Qed.

(** Every stored element (i, j, v) ends up, once, at (j*p + i mod p, i div p). *)
Theorem C30_vec_transpose_moves_entries : forall (V : Type) (A : vcsr V) p,
  vwf A -> 0 < p -> Nat.divide p (vrows A) ->
  exists B, sparse_vec_transpose A p = Ok B /\ vwf B /\ vrows B = vcols A * p /\ vcols B = vrows A / p /\
    Permutation (entries B) (map (fun '(i, j, v) => (j * p + i mod p, i / p, v)) (entries A)).
Proof. intros V A p. apply vec_transpose_spec. Qed.

Theorem C30_vec_transpose_twice : forall (V : Type) (A : vcsr V) p,
  vwf A -> 0 < p -> Nat.divide p (vrows A) ->
  exists B C, sparse_vec_transpose A p = Ok B /\ sparse_vec_transpose B p = Ok C /\ vwf C /\
    vrows C = vrows A /\ vcols C = vcols A /\ Permutation (entries C) (entries A).
Proof.
  intros V A p H Hp Hd. destruct (vec_transpose_spec A p H Hp Hd) as (B & EB & WB & RB & CB & PB).
  destruct (vec_transpose_spec B p WB Hp) as (C & EC & WC & RC & CC & PC); [exists (vcols A); lia|].
  exists B, C. split; [exact EB|]. split; [exact EC|]. split; [exact WC|]. split; [|split].
  - rewrite RC, CB. destruct Hd as [q ->]. rewrite Nat.div_mul by lia. reflexivity.
  - rewrite CC, RB. apply Nat.div_mul. lia.
  - rewrite PC, PB, map_map. rewrite (map_ext _ (fun e => e)) by (intros e; apply move_move; exact Hp). rewrite map_id. reflexivity.
Qed.

Lemma place_perm l l' i j : Permutation l l' -> place l i j = place l' i j.
Proof.
  intros H. unfold place. induction H as [| [[a b] v] l l' _ IH | [[a b] v] [[a' b'] v'] l | l l' l'' _ IH1 _ IH2].
  - reflexivity.
  - cbn [filter]. destruct (_ && _)%bool; [|exact IH]. cbn [map sumZ]. rewrite IH. reflexivity.
  - cbn [filter]. destruct ((a' =? i) && (b' =? j))%bool, ((a =? i) && (b =? j))%bool; try reflexivity.
    cbn [map sumZ]. lia.
  - congruence.
Qed.

Lemma place_move p l i j : 0 < p -> place (map (move p) l) (j * p + i mod p) (i / p) = place l i j.
Proof.
  intros Hp. unfold place. induction l as [|[[a b] v] l IH]; [reflexivity|]. cbn [map move filter].
  assert (((b * p + a mod p =? j * p + i mod p) && (a / p =? i / p))%bool = ((a =? i) && (b =? j))%bool) as ->.
  { pose proof (Nat.mod_upper_bound i p ltac:(lia)). pose proof (Nat.mod_upper_bound a p ltac:(lia)).
    pose proof (Nat.div_mod i p ltac:(lia)). pose proof (Nat.div_mod a p ltac:(lia)).
    apply eq_true_iff_eq. rewrite !andb_true_iff, !Nat.eqb_eq. split.
    - intros [E E']. assert (b = j) by nia. subst b. split; [nia|reflexivity].
    - intros [-> ->]. auto. }
  destruct (_ && _)%bool; [|exact IH]. cbn [map sumZ]. rewrite IH. reflexivity.
Qed.

(** The same in terms of the numbers in the matrix. *)
Theorem C30_vec_transpose_numbers : forall (A B : vcsr Z) p i j,
  vwf A -> 0 < p -> Nat.divide p (vrows A) -> sparse_vec_transpose A p = Ok B ->
  place (entries B) (j * p + i mod p) (i / p) = place (entries A) i j.
Proof.
  intros A B p i j H Hp Hd E. destruct (vec_transpose_spec A p H Hp Hd) as (B' & EB & _ & _ & _ & PB).
  rewrite E in EB. injection EB as <-. rewrite (place_perm _ _ _ _ PB). apply place_move. exact Hp.
Qed.

(** When p does not divide the row count, an element in the rows left over is
    an error. *)
Theorem C30_left_over_rows_raise : forall (V : Type) (A : vcsr V) p i j v,
  vwf A -> 0 < p -> In (i, j, v) (entries A) -> vrows A / p * p <= i -> sparse_vec_transpose A p = Raise ValueError.
Proof.
  intros V A p i j v H Hp Hin Hi. unfold sparse_vec_transpose.
  pose proof (entries_bounds A i j v H Hin) as [Hr _].
  pose proof (vt_loop_spec A p H (length (vind A)) 0 0 ltac:(lia) ltac:(lia) ltac:(lia)) as E.
  rewrite (vwf_0 A H) in E. specialize (E (le_n 0)). cbn [skipn] in E. rewrite E. cbn [bind].
  unfold tocsr.
  match goal with |- (if ?b then _ else _) = _ => assert (b = false) as -> end; [|reflexivity].
  apply not_true_is_false. rewrite forallb_forall. intros F.
  assert (HM : map (fun '(r, c, v) => (r, c, v)) (combine (map (fun '(i, c, _) => (c * p + i mod p, i / p)) (entries A)) (vdat A))
       = map (move p) (entries A)).
  { rewrite <- (entries_vals A H). clear. induction (entries A) as [|[[i j] v] l IH]; [reflexivity|]. cbn. f_equal. exact IH. }
  rewrite HM in F. specialize (F (move p (i, j, v)) (in_map _ _ _ Hin)). cbn [move] in F.
  apply andb_true_iff in F as [_ F]. apply Nat.ltb_lt in F.
  assert (vrows A / p <= i / p) by (apply Nat.div_le_lower_bound; lia). lia.
Qed.

Example C30_case : exists B, sparse_vec_transpose A30 2 = Ok B /\ entries B = [(0,0,7%Z); (1,1,6%Z); (2,1,9%Z); (4,0,8%Z); (5,1,5%Z)]
  /\ sparse_vec_transpose B 2 = Ok (mkV [0; 2; 2; 3; 5] [0; 2; 1; 0; 2] [7%Z; 8%Z; 9%Z; 6%Z; 5%Z] 3) /\ vwf A30 /\ Nat.divide 2 (vrows A30).
Proof. eexists. split; [reflexivity|]. split; [reflexivity|]. split; [reflexivity|]. split; [exact A30_wf|]. exists 2. reflexivity. Qed.
Example C30_case_left_over : sparse_vec_transpose A30 3 = Raise ValueError.
Proof. reflexivity. Qed.

(** ** C31 *)
Theorem C31_matrix_is_a_permutation : forall rows cols,
  Permutation (vec_trans_indices rows cols) (seq 0 (rows * cols)).
Proof. exact vti_perm. Qed.

(** Row r of the product with a vector picks the element at the row's single
    one. *)
Theorem C31_maps_vec_to_vec_of_transpose : forall (V : Type) (d : V) (A : nat -> nat -> V) rows cols,
  map (fun ix => nth ix (vecF A rows cols) d) (vec_trans_indices rows cols) = vecF (fun j i => A i j) cols rows.
Proof. intros V d A rows cols. apply vti_apply. Qed.

Theorem C31_inverse_is_that_of_the_swapped_shape : forall rows cols r, r < rows * cols ->
  nth (nth r (vec_trans_indices rows cols) 0) (vec_trans_indices cols rows) 0 = r.
Proof.
  intros rows cols r H. rewrite (vti_nth rows cols r H).
  rewrite vti_nth by (rewrite (Nat.mul_comm cols rows); apply vti_bound; exact H). apply (vti_inv rows cols r H).
Qed.

Example C31_case : vec_trans_indices 2 3 = [0; 2; 4; 1; 3; 5].
Proof. reflexivity. Qed.

(** ** C32 *)
Theorem C32_csr_indices_are_the_coordinates : forall (V : Type) (A : vcsr V), vwf A ->
  let '(rows, cols) := csr_indices (vptr A) (vind A) in
  length rows = length (vdat A) /\ length cols = length (vdat A) /\
  map (fun '((i, j), v) => (i, j, v)) (combine (combine rows cols) (vdat A)) = entries A.
Proof.
  intros V A H. rewrite (csr_indices_spec A H). pose proof (entries_length A H) as HL. pose proof (vwf_dat A H) as HD.
  split; [rewrite map_length; lia|]. split; [rewrite map_length; lia|].
  rewrite <- (entries_vals A H). clear. induction (entries A) as [|[[i j] v] l IH]; [reflexivity|]. cbn. f_equal. exact IH.
Qed.

(** [entries] itself: position k of the data belongs to the row whose pointer
    range holds k. *)
Theorem C32_row_of_each_position : forall (V : Type) (A : vcsr V) k, vwf A -> k < length (vind A) ->
  let i := nth k (fst (csr_indices (vptr A) (vind A))) 0 in
  i < vrows A /\ nth i (vptr A) 0 <= k < nth (i + 1) (vptr A) 0.
Proof.
  intros V A k H Hk. rewrite (csr_indices_spec A H). cbn [fst].
  destruct (entries_nth A k H Hk) as (i & c & v & E & Hi & Hb & _).
  assert (nth k (map (fun '(i0, _, _) => i0) (entries A)) 0 = i) as -> by (apply nth_error_nth; rewrite nth_error_map, E; reflexivity).
  auto.
Qed.

Example C32_case : csr_indices (vptr A30) (vind A30) = ([0; 0; 2; 3; 3], [0; 2; 1; 2; 0]) /\ vwf A30.
Proof. split; [reflexivity|exact A30_wf]. Qed.

(** ** C33 *)

(** What a caller expects for rows [start, end): each stored element of those
    rows combined with its own row of B (counted from start) and column. *)
Definition expected {V W} (op : nat -> nat -> V -> W) (A : vcsr V) (start end_ : nat) : list W :=
  map (fun '(i, j, v) => op (i - start) j v)
      (filter (fun '(i, _, _) => (start <=? i) && (i <? end_)) (entries A)).

Lemma filter_entries {V} (A : vcsr V) n : vwf A -> n <= vrows A ->
  filter (fun '(i, _, _) => (0 <=? i) && (i <? n)) (entries A) = first_entries A n.
Proof.
  intros H Hn. unfold entries, first_entries. rewrite <- !flat_map_concat_map.
  replace (vrows A) with (n + (vrows A - n)) by lia. rewrite seq_app, flat_map_app, filter_app.
  assert (F1 : forall s, (forall i, In i s -> i < n) -> filter (fun '(i, _, _) => (0 <=? i) && (i <? n))
     (flat_map (fun i => map (fun '(c, v) => (i, c, v)) (slice_ (combine (vind A) (vdat A)) (nth i (vptr A) 0) (nth (i + 1) (vptr A) 0))) s)
     = flat_map (fun i => map (fun '(c, v) => (i, c, v)) (slice_ (combine (vind A) (vdat A)) (nth i (vptr A) 0) (nth (i + 1) (vptr A) 0))) s).
  { induction s as [|i s IH]; intros Hs; [reflexivity|]. cbn [flat_map]. rewrite filter_app, IH by (intros; apply Hs; right; assumption).
    f_equal. specialize (Hs i (or_introl eq_refl)). induction (slice_ _ _ _) as [|[c v] l IHl]; [reflexivity|].
    cbn [map filter]. assert ((0 <=? i) && (i <? n) = true) as -> by lia. f_equal. exact IHl. }
  assert (F2 : forall s, (forall i, In i s -> n <= i) -> filter (fun '(i, _, _) => (0 <=? i) && (i <? n))
     (flat_map (fun i => map (fun '(c, v) => (i, c, v)) (slice_ (combine (vind A) (vdat A)) (nth i (vptr A) 0) (nth (i + 1) (vptr A) 0))) s)
     = []).
  { induction s as [|i s IH]; intros Hs; [reflexivity|]. cbn [flat_map]. rewrite filter_app, IH by (intros; apply Hs; right; assumption).
    rewrite app_nil_r. specialize (Hs i (or_introl eq_refl)). induction (slice_ _ _ _) as [|[c v] l IHl]; [reflexivity|].
    cbn [map filter]. assert ((0 <=? i) && (i <? n) = false) as -> by lia. exact IHl. }
  rewrite F1, F2, app_nil_r; [reflexivity| |]; intros i Hi; apply in_seq in Hi; lia.
Qed.

(** From row 0 on the kernels do what they should, for every end row, and leave
    the rest of the output alone. *)
Theorem C33_range_from_row_zero : forall (V W : Type) (op : nat -> nat -> V -> W) (A : vcsr V) (out : list W) end_,
  vwf A -> end_ <= vrows A -> nth end_ (vptr A) 0 <= length out ->
  range_kernel op A out 0 end_ = Ok (expected op A 0 end_ ++ skipn (nth end_ (vptr A) 0) out).
Proof.
  intros V W op A out e H He Ho. rewrite range_kernel_spec by (rewrite ?(vwf_0 A H); auto; lia).
  rewrite (vwf_0 A H), !Nat.sub_0_r, kwritten_0 by exact H. unfold expected. rewrite filter_entries by auto.
  do 2 f_equal. apply map_ext. intros [[i j] v]. rewrite Nat.sub_0_r. reflexivity.
Qed.

Theorem C33_full_kernels : forall (V W : Type) (op : nat -> nat -> V -> W) (A : vcsr V) (out : list W),
  vwf A -> length out = length (vdat A) ->
  full_kernel op A out = Ok (map (fun '(i, j, v) => op i j v) (entries A)).
Proof.
  intros V W op A out H Ho. unfold full_kernel. change (krows op A 0 (seq 0 (vrows A)) 0 0 out) with (range_kernel op A out 0 (vrows A)).
  rewrite (range_kernel_spec op A out 0 (vrows A)) by (rewrite ?(vwf_0 A H), ?(vwf_last A H), ?(vwf_dat A H) in *; auto; lia).
  rewrite (vwf_0 A H), (vwf_last A H), !Nat.sub_0_r, kwritten_0 by exact H.
  rewrite skipn_all2 by (rewrite Ho, (vwf_dat A H); lia). rewrite app_nil_r. reflexivity.
Qed.

(** Without an output matrix the wrapper returns exactly that. *)
Theorem C33_wrapper_from_row_zero : forall (V : Type) (op : nat -> nat -> V -> V) (A : vcsr V) end_,
  vwf A -> end_ <= vrows A -> quotient_of_dot op A None None (Some end_) = Ok (expected op A 0 end_).
Proof.
  intros V op A e H He. unfold quotient_of_dot.
  assert (L : length (slice_ (vdat A) (nth 0 (vptr A) 0) (nth e (vptr A) 0)) = nth e (vptr A) 0).
  { rewrite slice__length, (vwf_0 A H); [lia|]. rewrite (vwf_dat A H). apply ptr_le; assumption. }
  rewrite C33_range_from_row_zero by (auto; lia). rewrite skipn_all2 by lia. rewrite app_nil_r. reflexivity.
Qed.

(** For every range it returns as many numbers as the range has elements. *)
Theorem C33_wrapper_length : forall (V : Type) (op : nat -> nat -> V -> V) (A : vcsr V) start end_,
  vwf A -> start <= end_ -> end_ <= vrows A ->
  exists r, quotient_of_dot op A None (Some start) (Some end_) = Ok r /\ length r = nth end_ (vptr A) 0 - nth start (vptr A) 0.
Proof.
  intros V op A s e H Hs He. unfold quotient_of_dot.
  assert (L : length (slice_ (vdat A) (nth s (vptr A) 0) (nth e (vptr A) 0)) = nth e (vptr A) 0 - nth s (vptr A) 0).
  { rewrite slice__length; [lia|]. rewrite (vwf_dat A H). apply ptr_le; assumption. }
  rewrite range_kernel_spec by (auto; lia). eexists. split; [reflexivity|]. rewrite skipn_all2 by lia. rewrite app_nil_r.
  unfold kwritten.
  assert (G : forall n a, s <= a -> a + n <= vrows A ->
    length (concat (map (fun r => map (fun '(c, v) => op (r - s) c v)
      (slice_ (combine (vind A) (vdat A)) (nth r (vptr A) 0 - nth s (vptr A) 0) (nth (r + 1) (vptr A) 0 - nth s (vptr A) 0))) (seq a n)))
    = nth (a + n) (vptr A) 0 - nth a (vptr A) 0).
  { induction n as [|n IH]; intros a Ha Hn; [cbn; rewrite Nat.add_0_r; lia|]. cbn [seq map concat].
    rewrite app_length, map_length, IH by lia.
    pose proof (ptr_mono A s a H ltac:(lia) ltac:(lia)). pose proof (ptr_mono A a (a + 1) H ltac:(lia) ltac:(lia)).
    pose proof (ptr_mono A (a + 1) (a + S n) H ltac:(lia) ltac:(lia)). pose proof (ptr_le A (a + 1) H ltac:(lia)).
    pose proof (vwf_dat A H).
    rewrite slice__length by (rewrite combine_length; lia). replace (S a + n) with (a + S n) by lia.
    rewrite Nat.add_1_r in *. lia. }
  rewrite G by lia. f_equal. f_equal. lia.
Qed.

(** For a later start: the numbers written for row r come from the stored
    elements [ptr r - ptr start, ptr (r+1) - ptr start), i.e. those at the top
    of the matrix, written at the top of the output. *)
Theorem C33_what_a_later_start_does_partial : forall (V W : Type) (op : nat -> nat -> V -> W) (A : vcsr V) (out : list W) start end_,
  vwf A -> start <= end_ -> end_ <= vrows A -> nth end_ (vptr A) 0 - nth start (vptr A) 0 <= length out ->
  range_kernel op A out start end_ =
  Ok (concat (map (fun r => map (fun '(c, v) => op (r - start) c v)
                (slice_ (combine (vind A) (vdat A)) (nth r (vptr A) 0 - nth start (vptr A) 0)
                                                    (nth (r + 1) (vptr A) 0 - nth start (vptr A) 0)))
             (seq start (end_ - start)))
      ++ skipn (nth end_ (vptr A) 0 - nth start (vptr A) 0) out).
Proof. intros V W op A out s e H. apply range_kernel_spec. exact H. Qed.

(** So the claim fails: two rows, the range holding only the second one. *)
Theorem C33_range_refuted : exists (op : nat -> nat -> Z -> Z) (A : vcsr Z),
  vwf A /\
  quotient_of_dot op A None (Some 1) (Some 2) <> Ok (expected op A 1 2) /\
  (exists r, quotient_of_dot op A None (Some 1) (Some 2) = Ok r) /\
  (exists r, quotient_of_dot op A (Some (vdat A)) (Some 1) (Some 2) = Ok r /\
     nth 0 r 0%Z <> nth 0 (vdat A) 0%Z /\ nth 1 r 0%Z = nth 1 (vdat A) 0%Z).
Proof.
  exists (fun _ col a => (a * 10 + Z.of_nat col)%Z), (mkV [0; 1; 2] [0; 1] [3%Z; 4%Z] 2). split; [|split; [|split]].
  - unfold vwf, vrows. cbn. split; [discriminate|]. split; [reflexivity|]. split.
    + intros [|[|i]] H; cbn; lia.
    + split; [reflexivity|]. split; [reflexivity|]. repeat constructor.
  - vm_compute. discriminate.
  - eexists. reflexivity.
  - eexists. split; [reflexivity|]. split; [vm_compute; discriminate|reflexivity].
Qed.

Example C33_case : range_kernel (fun r c v => (r, c, v)) A30 [(9,9,0%Z); (9,9,1%Z); (9,9,2%Z); (9,9,3%Z); (9,9,4%Z)] 0 3
  = Ok [(0,0,7%Z); (0,2,8%Z); (2,1,9%Z); (9,9,3%Z); (9,9,4%Z)] /\ vwf A30.
Proof. split; [reflexivity|exact A30_wf]. Qed.
Example C33_case_later_start : range_kernel (fun r c v => (r, c, v)) A30 (repeat (9,9,0%Z) 3) 2 4
  = Ok [(0,0,7%Z); (1,2,8%Z); (1,1,9%Z)].
Proof. reflexivity. Qed.

(** ** C69 The dense and the sparse vec-transpose agree *)
Theorem C69_dense_writes_every_cell : forall (V : Type) (A : nat -> nat -> V) rows cols p,
  0 < p -> Nat.divide p rows ->
  exists out, vec_transpose A rows cols p = Ok out /\ length out = cols * p /\ Forall (fun r => length r = rows / p) out /\
    (forall i j, i < rows -> j < cols -> cell out (j * p + i mod p) (i / p) = Some (Some (A i j))) /\
    (forall r c, r < cols * p -> c < rows / p -> cell out r c = Some (Some (A (c * p + r mod p) (r / p)))).
Proof.
  intros V A rows cols p Hp Hd. destruct (vec_transpose_dense A rows cols p Hp Hd) as (out & E & [S1 S2] & C1 & C2).
  exists out. auto.
Qed.

Theorem C69_dense_agrees_with_sparse : forall (A B : vcsr Z) out p r c,
  vwf A -> 0 < p -> Nat.divide p (vrows A) ->
  sparse_vec_transpose A p = Ok B ->
  vec_transpose (place (entries A)) (vrows A) (vcols A) p = Ok out ->
  r < vrows B -> c < vcols B -> cell out r c = Some (Some (place (entries B) r c)).
Proof.
  intros A B out p r c H Hp Hd EB EO Hr Hc.
  destruct (vec_transpose_spec A p H Hp Hd) as (B' & EB' & _ & RB & CB & PB). rewrite EB in EB'. injection EB' as <-.
  destruct (vec_transpose_dense (place (entries A)) (vrows A) (vcols A) p Hp Hd) as (out' & EO' & _ & _ & C2).
  rewrite EO in EO'. injection EO' as <-. rewrite C2 by lia. do 2 f_equal.
  rewrite <- (C30_vec_transpose_numbers A B p (c * p + r mod p) (r / p) H Hp Hd EB).
  pose proof (Nat.mod_upper_bound r p ltac:(lia)).
  assert ((c * p + r mod p) mod p = r mod p) as -> by (rewrite Nat.add_comm, Nat.mod_add, Nat.mod_mod by lia; reflexivity).
  assert ((c * p + r mod p) / p = c) as -> by (rewrite Nat.div_add_l, (Nat.div_small (r mod p)) by lia; lia).
  pose proof (Nat.div_mod r p ltac:(lia)). replace (r / p * p + r mod p) with r by lia. reflexivity.
Qed.

(** Without divisibility the compiled loop writes outside its buffer, where the
    sparse version raises. *)
Theorem C69_ragged_writes_outside : forall (V : Type) (A : nat -> nat -> V) rows cols p,
  0 < p -> ~ Nat.divide p rows -> 0 < cols -> vec_transpose A rows cols p = Raise MemoryOOB.
Proof. intros V A rows cols p. apply vec_transpose_ragged. Qed.

Theorem C69_dense_stays_inside_refuted : exists (A : nat -> nat -> Z) rows cols p,
  0 < p <= rows /\ 0 < cols /\ vec_transpose A rows cols p = Raise MemoryOOB.
Proof. exists (fun i j => 1%Z), 3, 1, 2. split; [lia|]. split; [lia|reflexivity]. Qed.

Example C69_case : vec_transpose (fun i j => (i, j)) 4 2 2
  = Ok [[Some (0,0); Some (2,0)]; [Some (1,0); Some (3,0)]; [Some (0,1); Some (2,1)]; [Some (1,1); Some (3,1)]].
Proof. reflexivity. Qed.
Example C69_case_outside : vec_transpose (fun i j => (i, j)) 3 1 2 = Raise MemoryOOB.
Proof. reflexivity. Qed.

(** ** C70 A given output matrix receives the result *)
Theorem C70_out_receives_result_partial : forall (V : Type) (op : nat -> nat -> V -> V) double_ (A : vcsr V) o start end_ r out',
  (double_ = false \/ (match start with None => 0 | Some s => s end) <> 0 \/
   (match end_ with None => vrows A | Some e => e end) <> vrows A) ->
  product_of_ln_dot op double_ A (Some o) start end_ = Ok (r, out') -> out' = Some r.
Proof.
  intros V op double_ A o start end_ r out' Hd. unfold product_of_ln_dot.
  set (s := match start with None => 0 | Some s => s end) in *. set (e := match end_ with None => vrows A | Some e => e end) in *.
  assert ((s =? 0) && (e =? vrows A) && double_ = false) as ->.
  { destruct (Nat.eqb_spec s 0); [|reflexivity]. destruct (Nat.eqb_spec e (vrows A)); [|reflexivity].
    destruct Hd as [->|[?|?]]; [reflexivity|contradiction|contradiction]. }
  destruct (quotient_of_dot op A (Some o) start end_); cbn [bind]; [|discriminate]. intros [= <- <-]. reflexivity.
Qed.

(** In double precision over the full range the caller's matrix is left as it
    was, although the result returned is right. *)
Theorem C70_out_untouched_for_full_range : forall (V : Type) (op : nat -> nat -> V -> V) (A : vcsr V) o,
  vwf A -> product_of_ln_dot op true A (Some o) None None = Ok (map (fun '(i, j, v) => op i j v) (entries A), Some o).
Proof.
  intros V op A o H. unfold product_of_ln_dot. rewrite Nat.eqb_refl. cbn [andb]. rewrite Nat.eqb_refl. cbn [andb].
  change (range_kernel op A (vdat A) 0 (vrows A)) with (full_kernel op A (vdat A)).
  rewrite C33_full_kernels by auto. reflexivity.
Qed.

Theorem C70_out_receives_result_refuted : exists (op : nat -> nat -> Z -> Z) (A : vcsr Z) o r out',
  vwf A /\ length o = length (vdat A) /\ product_of_ln_dot op true A (Some o) None None = Ok (r, out') /\ out' <> Some r.
Proof.
  exists (fun r c v => (v * 10)%Z), A30, [0; 0; 0; 0; 0]%Z. eexists. eexists.
  split; [exact A30_wf|]. split; [reflexivity|]. split; [reflexivity|]. vm_compute. discriminate.
Qed.

Example C70_case : product_of_ln_dot (fun r c v => (v * 10)%Z) true A30 (Some [0; 0; 0; 0; 0]%Z) None None
  = Ok ([70; 80; 90; 50; 60]%Z, Some [0; 0; 0; 0; 0]%Z)
  /\ product_of_ln_dot (fun r c v => (v * 10)%Z) false A30 (Some [0; 0; 0; 0; 0]%Z) None None
  = Ok ([70; 80; 90; 50; 60]%Z, Some [70; 80; 90; 50; 60]%Z).
Proof. split; reflexivity. Qed.

(** ** C71 The entropy of a dot product does not depend on the dtype *)
Lemma at_ok {V} (M : mat V) i j x : nth_error M i = Some x -> j < length x -> exists y, at_ M i j = Ok y.
Proof.
  intros E H. unfold at_, get_. rewrite E. cbn [bind]. destruct (nth_error x j) eqn:E'; [eauto|]. apply nth_error_None in E'. lia.
Qed.

(** More documents than topics: the fallback raises where the compiled versions
    return, whatever the numbers. *)
Theorem C71_fallback_raises_with_more_documents : forall (V : Type) (zero a : V) (add mul div term : V -> V -> V),
  (exists r, entropyOfDot_f8 zero add mul div term [[a]; [a]] [[a]] 2 1 1 = Ok r) /\
  entropyOfDot_py zero add mul div term [[a]; [a]] [[a]] 2 1 1 = Raise IndexError.
Proof. intros. split; [eexists|]; reflexivity. Qed.

(** Even without the error the logarithm is of another number. *)
Theorem C71_entropy_same_for_every_dtype_refuted : exists (topics vocab : mat (list nat)) r r',
  let pair_ (x y : list nat) := x ++ y in
  entropyOfDot_f8 [] (fun x _ => x) pair_ (fun x _ => x) pair_ topics vocab 1 1 2 = Ok r /\
  entropyOfDot_py [] (fun x _ => x) pair_ (fun x _ => x) pair_ topics vocab 1 1 2 = Ok r' /\ r <> r'.
Proof. exists [[[1]]], [[[2]; [3]]]. eexists. eexists. split; [reflexivity|]. split; [reflexivity|]. vm_compute. discriminate. Qed.

Print Assumptions C30_vec_transpose_moves_entries.
Print Assumptions C30_vec_transpose_twice.
Print Assumptions C30_vec_transpose_numbers.
Print Assumptions C30_left_over_rows_raise.
Print Assumptions C31_matrix_is_a_permutation.
Print Assumptions C31_maps_vec_to_vec_of_transpose.
Print Assumptions C31_inverse_is_that_of_the_swapped_shape.
Print Assumptions C32_csr_indices_are_the_coordinates.
Print Assumptions C32_row_of_each_position.
Print Assumptions C33_range_from_row_zero.
Print Assumptions C33_full_kernels.
Print Assumptions C33_wrapper_from_row_zero.
Print Assumptions C33_wrapper_length.
Print Assumptions C33_what_a_later_start_does_partial.
Print Assumptions C33_range_refuted.
Print Assumptions C69_dense_writes_every_cell.
Print Assumptions C69_dense_agrees_with_sparse.
Print Assumptions C69_ragged_writes_outside.
Print Assumptions C69_dense_stays_inside_refuted.
Print Assumptions C70_out_receives_result_partial.
Print Assumptions C70_out_untouched_for_full_range.
Print Assumptions C70_out_receives_result_refuted.
Print Assumptions C71_fallback_raises_with_more_documents.
Print Assumptions C71_entropy_same_for_every_dtype_refuted.
