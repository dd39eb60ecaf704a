(** * C245-C247: the dictionary for gensim, and the operands of the sparse element-wise
    operations. *)
From Coq Require Import List Reals ZArith Arith Bool String Lra Lia.
From Verif Require Import Base RealModel RealProofs VecModel VecSpec VecProofs VecMore VecProps EstModel SparseModel OpsModel.
Import ListNotations.
Open Scope nat_scope.

(** ** Vocabulary: the entry of a matrix in its row and column, and the matrix product *)
Definition entry (m : dense) (i j : nat) : R := nth (i * d_cols m + j) (d_mem m) 0%R.
Definition whole (m : dense) : Prop := List.length (d_mem m) = d_rows m * d_cols m.
Definition matrix_product (n : nat) (B C : dense) (i j : nat) : R := rsum (map (fun k => entry B i k * entry C k j)%R (seq 0 n)).
(** The shapes of A, B and C in A * B.dot(C). *)
Definition shapes_agree (A : vcsr R) (B C : dense) : Prop :=
  vrows A = d_rows B /\ d_cols B = d_rows C /\ vcols A = d_cols C.

(** ** Reading *)
Lemma peek_in m i j : whole m -> i < d_rows m -> j < d_cols m -> peek m i j = Ok (entry m i j).
Proof.
  intros W Hi Hj. unfold peek, oob, entry.
  assert (i * d_cols m + j < List.length (d_mem m)) by (rewrite W; nia).
  rewrite (nth_error_nth' _ 0%R) by assumption. reflexivity.
Qed.

Lemma dot_raise B C r c e l : fold_left (fun acc i => do a <- acc; do x <- peek B r i; do y <- peek C i c; Ok (a + x * y)%R) l (Raise e) = Raise e.
Proof. induction l as [|i l IH]; [reflexivity|]. cbn [fold_left bind]. exact IH. Qed.

Lemma dot_ok B C r c l a :
  (forall i, In i l -> peek B r i = Ok (entry B r i) /\ peek C i c = Ok (entry C i c)) ->
  fold_left (fun acc i => do a <- acc; do x <- peek B r i; do y <- peek C i c; Ok (a + x * y)%R) l (Ok a)
  = Ok (a + rsum (map (fun k => entry B r k * entry C k c)%R l))%R.
Proof.
  revert a. induction l as [|i l IH]; intros a H; cbn [fold_left map rsum bind]; [f_equal; ring|].
  destruct (H i (or_introl eq_refl)) as [-> ->]. cbn [bind]. rewrite IH by (intros; apply H; right; assumption). f_equal. ring.
Qed.

Lemma dot_product_in B C r c : whole B -> whole C -> d_cols B <= d_rows C -> r < d_rows B -> c < d_cols C ->
  dot_product B C r c = Ok (matrix_product (d_cols B) B C r c).
Proof.
  intros WB WC K Hr Hc. unfold dot_product. rewrite dot_ok; [f_equal; unfold matrix_product; ring|].
  intros i Hi%in_seq. split; apply peek_in; auto; lia.
Qed.

Lemma dot_some_fail B C r c i l a : In i l ->
  peek B r i = Raise MemoryOOB \/ peek C i c = Raise MemoryOOB ->
  fold_left (fun acc i => do a <- acc; do x <- peek B r i; do y <- peek C i c; Ok (a + x * y)%R) l (Ok a) = Raise MemoryOOB.
Proof.
  revert a. induction l as [|k l IH]; intros a Hi Hf; [destruct Hi|]. cbn [fold_left bind].
  assert (Hk : forall m a b e, peek m a b = Raise e -> e = MemoryOOB).
  { intros m x y e. unfold peek, oob. destruct (nth_error _ _); [discriminate|]. intros [= <-]. reflexivity. }
  destruct (peek B r k) as [x|e] eqn:E1; cbn [bind]; [|rewrite dot_raise; f_equal; eauto].
  destruct (peek C k c) as [y|e] eqn:E2; cbn [bind]; [|rewrite dot_raise; f_equal; eauto].
  destruct Hi as [->|Hi]; [|apply IH; assumption]. destruct Hf; congruence.
Qed.

Lemma peek_out m i j : whole m -> d_rows m * d_cols m <= i * d_cols m + j -> peek m i j = Raise MemoryOOB.
Proof. intros W H. unfold peek, oob. rewrite (proj2 (nth_error_None _ _)) by (rewrite W; exact H). reflexivity. Qed.

(** With as many columns of B as rows of C, at least one, a row or column that is not
    there is always read outside the memory of the matrix. *)
Lemma dot_product_out B C r c : whole B -> whole C -> d_cols B = d_rows C -> 0 < d_cols B ->
  d_rows B <= r \/ d_cols C <= c -> dot_product B C r c = Raise MemoryOOB.
Proof.
  intros WB WC K P [H|H]; unfold dot_product.
  - apply (dot_some_fail _ _ _ _ 0); [apply in_seq; lia|left]. apply peek_out; [exact WB|nia].
  - apply (dot_some_fail _ _ _ _ (d_rows C - 1)); [apply in_seq; lia|right]. apply peek_out; [exact WC|nia].
Qed.

Lemma mapM_fail {X Y} (f : X -> res Y) e l : (forall x, In x l -> (exists y, f x = Ok y) \/ f x = Raise e) ->
  (exists x, In x l /\ f x = Raise e) -> mapM f l = Raise e.
Proof.
  induction l as [|x l IH]; intros Ha (y & Hy & Ey); [destruct Hy|]. cbn [mapM].
  destruct (Ha x (or_introl eq_refl)) as [[z Ez]|Ez]; [|rewrite Ez; reflexivity]. rewrite Ez. cbn [bind].
  destruct Hy as [->|Hy]; [congruence|]. rewrite IH; [reflexivity| |eauto]. intros; apply Ha; right; assumption.
Qed.
Lemma mapM_all {X Y} (f : X -> res Y) g l : (forall x, In x l -> f x = Ok (g x)) -> mapM f l = Ok (map g l).
Proof.
  induction l as [|x l IH]; intros H; [reflexivity|]. cbn [mapM map]. rewrite (H x (or_introl eq_refl)). cbn [bind].
  rewrite IH by (intros; apply H; right; assumption). reflexivity.
Qed.
Lemma mapM_map {X Y Z} (f : Y -> res Z) (g : X -> Y) l : mapM f (map g l) = mapM (fun x => f (g x)) l.
Proof. induction l as [|x l IH]; [reflexivity|]. cbn [mapM map]. rewrite IH. reflexivity. Qed.

Lemma compiled_entries tiny o t A B C : vwf A ->
  compiled tiny o t A B C = mapM (fun '(i, j, v) => do x <- dot_product B C i j; Ok (apply_op tiny o t v x)) (entries A).
Proof.
  intros W. unfold compiled. rewrite C33_full_kernels by (auto; rewrite map_length; reflexivity). cbn [bind].
  rewrite mapM_map. induction (entries A) as [|[[i j] v] l IH]; reflexivity.
Qed.

(** ** C246 Sparse element-wise operations give the numbers of the dense expression *)
Theorem C246_values : forall tiny o t A B C,
  vwf A -> whole B -> whole C -> shapes_agree A B C ->
  t = F32 \/ t = F64 -> d_type B = t -> d_type C = t ->
  sparse_op tiny o t A B C
  = Ok (map (fun '(i, j, v) => apply_op tiny o t v (matrix_product (d_rows C) B C i j)) (entries A)).
Proof.
  intros tiny o t A B C WA WB WC (S1 & S2 & S3) Ht TB TC. unfold sparse_op. rewrite TB, TC.
  assert (dtype_eqb t t = true) as -> by (destruct t; reflexivity). cbn [andb].
  assert (compiled tiny o t A B C = Ok (map (fun '(i, j, v) => apply_op tiny o t v (matrix_product (d_rows C) B C i j)) (entries A))).
  { rewrite compiled_entries by exact WA. apply mapM_all. intros [[i j] v] Hin. destruct (entries_bounds A i j v WA Hin).
    rewrite dot_product_in by (auto; lia). rewrite S2. reflexivity. }
  destruct Ht as [-> | ->]; assumption.
Qed.

(** What the operations are of: the stored number times, over, or times the logarithm
    of the matrix product. *)
Theorem C246_operations : forall tiny t a x,
  apply_op tiny Product t a x = (a * x)%R /\ apply_op tiny Quotient t a x = (a / x)%R /\
  ((tiny t < x)%R -> apply_op tiny SafeLn t a x = (a * ln x)%R) /\
  ((x <= tiny t)%R -> apply_op tiny SafeLn t a x = (a * ln (tiny t))%R).
Proof.
  intros tiny t a x. split; [reflexivity|]. split; [reflexivity|]. cbn [apply_op]. split; intros H.
  - rewrite (proj2 (rltb_true _ _) H). reflexivity.
  - rewrite (proj2 (rltb_false _ _) H). reflexivity.
Qed.

(** For matrices with matching inner dimension: numbers come back exactly when every
    stored element lies in a row of B and a column of C, and otherwise memory outside the
    matrices is read. *)
Theorem C246_reads_inside : forall tiny o t A B C,
  vwf A -> whole B -> whole C -> d_cols B = d_rows C -> 0 < d_cols B ->
  t = F32 \/ t = F64 -> d_type B = t -> d_type C = t ->
  ((exists l, sparse_op tiny o t A B C = Ok l) <-> (forall i j v, In (i, j, v) (entries A) -> i < d_rows B /\ j < d_cols C)) /\
  ((exists i j v, In (i, j, v) (entries A) /\ (d_rows B <= i \/ d_cols C <= j)) -> sparse_op tiny o t A B C = Raise MemoryOOB).
Proof.
  intros tiny o t A B C WA WB WC K P Ht TB TC.
  assert (E : sparse_op tiny o t A B C = compiled tiny o t A B C).
  { unfold sparse_op. rewrite TB, TC. assert (dtype_eqb t t = true) as -> by (destruct t; reflexivity). destruct Ht as [-> | ->]; reflexivity. }
  rewrite E, compiled_entries by exact WA.
  assert (F : (exists i j v, In (i, j, v) (entries A) /\ (d_rows B <= i \/ d_cols C <= j)) ->
    mapM (fun '(i, j, v) => do x <- dot_product B C i j; Ok (apply_op tiny o t v x)) (entries A) = Raise MemoryOOB).
  { intros (i & j & v & Hin & Hb). apply mapM_fail.
    - intros [[i' j'] v'] _. destruct (le_lt_dec (d_rows B) i') as [L|L].
      + right. rewrite dot_product_out by auto. reflexivity.
      + destruct (le_lt_dec (d_cols C) j') as [L'|L'].
        * right. rewrite dot_product_out by auto. reflexivity.
        * left. rewrite dot_product_in by (auto; lia). eexists. reflexivity.
    - exists (i, j, v). split; [exact Hin|]. rewrite dot_product_out by auto. reflexivity. }
  split; [|exact F]. split.
  - intros [l El] i j v Hin. destruct (le_lt_dec (d_rows B) i) as [L|L].
    { rewrite F in El; [discriminate|]. exists i, j, v. auto. }
    destruct (le_lt_dec (d_cols C) j) as [L'|L']; [|auto]. rewrite F in El; [discriminate|]. exists i, j, v. auto.
  - intros H. eexists. apply (mapM_all _ (fun '(i, j, v) => apply_op tiny o t v (matrix_product (d_cols B) B C i j))).
    intros [[i j] v] Hin. destruct (H i j v Hin). rewrite dot_product_in by (auto; lia). reflexivity.
Qed.

(** So a word beyond the columns of the topics is never reported. *)
Theorem C246_shapes_checked_refuted : exists tiny A B C,
  vwf A /\ whole B /\ whole C /\ d_cols B = d_rows C /\ vrows A = d_rows B /\ d_cols C < vcols A /\
  sparse_op tiny SafeLn F64 A B C = Raise MemoryOOB /\
  (forall B' C', whole B' -> whole C' -> d_type B' = I64 -> d_type C' = I64 -> d_cols B' = d_rows C' -> d_rows B' = d_rows B -> d_cols C' = d_cols C ->
     sparse_op tiny Product I64 A B' C' = Raise IndexError).
Proof.
  exists (fun _ => (/ 1000)%R), (mkV [0; 1] [1] [1%R] 2), (mkDense F64 1 1 [1%R]), (mkDense F64 1 1 [1%R]).
  assert (W : vwf (mkV [0; 1] [1] [1%R] 2)).
  { split; [discriminate|]. split; [reflexivity|]. split; [intros [|i] H; cbn in *; lia|]. split; [reflexivity|]. split; [reflexivity|].
    repeat constructor. }
  split; [exact W|]. split; [reflexivity|]. split; [reflexivity|]. split; [reflexivity|]. split; [reflexivity|]. split; [cbn; lia|].
  split.
  - apply C246_reads_inside; auto; try reflexivity. exists 0, 1, 1%R. split; [left; reflexivity|]. right. cbn. lia.
  - intros B' C' _ _ TB TC K R Cc. unfold sparse_op, at_places. rewrite K, Nat.eqb_refl. cbn [negb].
    cbn [vptr vind csr_indices]. unfold csr_indices. cbn. rewrite Cc. cbn. rewrite andb_false_r. reflexivity.
Qed.

(** With more rows of C than columns of B the rest of C is left out, where numpy refuses
    the product. *)
Theorem C246_inner_dimension_refuted : exists tiny A B C,
  vwf A /\ whole B /\ whole C /\ vrows A = d_rows B /\ vcols A = d_cols C /\ d_cols B < d_rows C /\
  sparse_op tiny Product F64 A B C = Ok [2%R] /\
  (forall B' C', d_type B' = I64 -> d_type C' = I64 -> d_cols B' = d_cols B -> d_rows C' = d_rows C ->
     sparse_op tiny Product I64 A B' C' = Raise ValueError).
Proof.
  exists (fun _ => (/ 1000)%R), (mkV [0; 1] [0] [1%R] 1), (mkDense F64 1 1 [1%R]), (mkDense F64 2 1 [2%R; 3%R]).
  split.
  { split; [discriminate|]. split; [reflexivity|]. split; [intros [|i] H; cbn in *; lia|]. split; [reflexivity|]. split; [reflexivity|].
    repeat constructor. }
  split; [reflexivity|]. split; [reflexivity|]. split; [reflexivity|]. split; [reflexivity|]. split; [cbn; lia|]. split.
  - cbn. do 2 f_equal. ring.
  - intros B' C' TB TC K R. unfold sparse_op, at_places. rewrite K, R. reflexivity.
Qed.

(** A corpus of two documents, two topics. *)
Example C246_case : forall tiny,
  sparse_op tiny Product F64 (mkV [0; 1; 3] [1; 0; 1] [1%R; 2%R; 3%R] 2) (mkDense F64 2 2 [1; 0; 0; 1]%R) (mkDense F64 2 2 [1; 2; 3; 4]%R)
  = Ok [2%R; 6%R; 12%R].
Proof. intros tiny. cbn. repeat f_equal; ring. Qed.

(** ** C247 Sparse element-wise operations work for every number type *)
Lemma at_places_ok A B C : vwf A -> whole B -> whole C -> shapes_agree A B C ->
  at_places A B C = Ok (map (fun '(i, j, _) => matrix_product (d_rows C) B C i j) (entries A)).
Proof.
  intros WA WB WC (S1 & S2 & S3). unfold at_places. rewrite S2, Nat.eqb_refl. cbn [negb].
  rewrite (csr_indices_spec A WA).
  assert (G : forall l : coo R, combine (map (fun '(i, _, _) => i) l) (map (fun '(_, c, _) => c) l) = map (fun '(i, j, _) => (i, j)) l).
  { induction l as [|[[i j] v] l IH]; [reflexivity|]. cbn. rewrite IH. reflexivity. }
  rewrite G, mapM_map. 
  apply mapM_all. intros [[i j] v] Hin. destruct (entries_bounds A i j v WA Hin).
  rewrite (proj2 (Nat.ltb_lt i (d_rows B))), (proj2 (Nat.ltb_lt j (d_cols C))) by lia. cbn [andb].
  rewrite dot_product_in by (auto; lia). rewrite S2. reflexivity.
Qed.

Theorem C247_which_types_work : forall tiny o a A B C,
  vwf A -> whole B -> whole C -> shapes_agree A B C ->
  ((exists l, sparse_op tiny o a A B C = Ok l) <->
   ((a = F32 \/ a = F64) /\ d_type B = a /\ d_type C = a) \/
   (o = Product /\ is_int a = true /\ is_int (d_type B) = true /\ is_int (d_type C) = true)).
Proof.
  intros tiny o a A B C WA WB WC S. split.
  - intros [l E]. unfold sparse_op in E. rewrite (at_places_ok A B C WA WB WC S) in E. cbn [bind] in E.
    destruct a; destruct (d_type B) eqn:TB; destruct (d_type C) eqn:TC; destruct o; cbn in E; try discriminate; auto 10.
  - intros [(Ha & TB & TC) | (-> & Ia & IB & IC)].
    + rewrite C246_values by auto. eauto.
    + unfold sparse_op. rewrite (at_places_ok A B C WA WB WC S), IB, IC. cbn [bind andb]. destruct a; try discriminate; eauto.
Qed.

(** Whole numbers are multiplied exactly. *)
Theorem C247_whole_numbers : forall tiny a A B C,
  vwf A -> whole B -> whole C -> shapes_agree A B C ->
  is_int a = true -> is_int (d_type B) = true -> is_int (d_type C) = true ->
  sparse_op tiny Product a A B C = Ok (map (fun '(i, j, v) => v * matrix_product (d_rows C) B C i j)%R (entries A)).
Proof.
  intros tiny a A B C WA WB WC S Ia IB IC. unfold sparse_op. rewrite (at_places_ok A B C WA WB WC S), IB, IC. cbn [bind andb].
  assert (G : forall l : coo R, combine (map (fun '(_, _, v) => v) l) (map (fun '(i, j, _) => matrix_product (d_rows C) B C i j) l)
     = map (fun '(i, j, v) => (v, matrix_product (d_rows C) B C i j)) l).
  { induction l as [|[[i j] v] l IH]; [reflexivity|]. cbn [map combine]. rewrite IH. reflexivity. }
  rewrite <- (entries_vals A WA), G, map_map.
  assert (map (fun x : nat * nat * R => let '(x0, y) := let '(i, j, v) := x in (v, matrix_product (d_rows C) B C i j) in (x0 * y)%R) (entries A)
    = map (fun '(i, j, v) => v * matrix_product (d_rows C) B C i j)%R (entries A)) as -> by (apply map_ext; intros [[i j] v]; reflexivity).
  destruct a; try discriminate; reflexivity.
Qed.

(** Counts that are whole numbers, the type in which corpora are read, with topics:
    every operation raises, also the product documented to multiply whole numbers. *)
Theorem C247_counts_refuted : forall tiny o a A B C,
  vwf A -> whole B -> whole C -> shapes_agree A B C ->
  is_int a = true -> is_int (d_type B) = false -> is_int (d_type C) = false ->
  sparse_op tiny o a A B C = Raise (match o with Product => TypeError | _ => ValueError end).
Proof.
  intros tiny o a A B C WA WB WC S Ia IB IC. unfold sparse_op. rewrite (at_places_ok A B C WA WB WC S). cbn [bind].
  destruct a; try discriminate; destruct o; rewrite ?IB, ?IC; try reflexivity;
    destruct (d_type B); try discriminate; reflexivity.
Qed.
Example C247_counts_case : forall tiny,
  sparse_op tiny Product I32 (mkV [0; 1] [0] [3%R] 1) (mkDense F64 1 1 [1%R]) (mkDense F64 1 1 [2%R]) = Raise TypeError /\
  sparse_op tiny Product I32 (mkV [0; 1] [0] [3%R] 1) (mkDense I64 1 1 [1%R]) (mkDense I64 1 1 [2%R]) = Ok [(3 * (0 + 1 * 2))%R] /\
  sparse_op tiny SafeLn I32 (mkV [0; 1] [0] [3%R] 1) (mkDense I32 1 1 [1%R]) (mkDense I32 1 1 [2%R]) = Raise TypeError /\
  sparse_op tiny SafeLn F32 (mkV [0; 1] [0] [3%R] 1) (mkDense F64 1 1 [1%R]) (mkDense F64 1 1 [2%R]) = Raise ValueError.
Proof. repeat split. Qed.

(** ** C245 The dictionary made for gensim covers the vocabulary *)
(** A word occurs in a document of the corpus. *)
Definition occurs (m : smat) (w : nat) : Prop := exists r v, In r (srows m) /\ In (w, v) r /\ v <> 0%Z.
(** No place of a row is stored twice, as after sum_duplicates(). *)
Definition canonical (m : smat) : Prop := Forall (fun r : list (nat * Z) => NoDup (map fst r)) (srows m).


Lemma add_pairs l : forall pos df mx, exists df' mx',
  fold_left add_pair l ((pos, df), mx) = (((pos + sumZ (map snd l))%Z, df'), mx') /\
  (forall v, df' v = df v + List.length (filter (fun p => fst p =? v) l)) /\
  match mx' with
  | None => mx = None /\ l = []
  | Some m => (mx = Some m \/ In m (map fst l)) /\ (forall w, mx = Some w \/ In w (map fst l) -> w <= m)
  end.
Proof.
  induction l as [|[w f] l IH]; intros pos df mx.
  - exists df, mx. cbn. split; [rewrite Z.add_0_r; reflexivity|]. split; [intros; lia|]. destruct mx as [m|]; [|auto].
    split; [auto|]. intros w [[= ->]|[]]. lia.
  - cbn [fold_left add_pair].
    destruct (IH (pos + f)%Z (fun v => if v =? w then df v + 1 else df v) (Some (match mx with None => w | Some m => Nat.max w m end)))
      as (df' & mx' & E & Hd & Hm).
    exists df', mx'. rewrite E. split; [|split].
    + cbn [map snd sumZ]. rewrite Z.add_assoc. reflexivity.
    + intros v. rewrite Hd. cbn [filter fst]. rewrite (Nat.eqb_sym v w). destruct (w =? v); cbn [List.length]; lia.
    + destruct mx' as [m|]; [|destruct Hm as [Hm _]; discriminate]. destruct Hm as [H1 H2]. cbn [map fst]. split.
      * destruct H1 as [H1|H1]; [|right; right; exact H1]. injection H1 as H1. destruct mx as [x|]; [|right; left; exact H1].
        destruct (Nat.max_spec w x) as [[? E']|[? E']]; rewrite E' in H1; [left; congruence|right; left; exact H1].
      * intros u [H|[H|H]].
        -- subst mx. specialize (H2 _ (or_introl eq_refl)). lia.
        -- subst u. specialize (H2 _ (or_introl eq_refl)). destruct mx; lia.
        -- apply H2. right. exact H.
Qed.

Lemma fold_concat {X S} (f : S -> X -> S) ds s : fold_left (fun s d => fold_left f d s) ds s = fold_left f (List.concat ds) s.
Proof. revert s. induction ds as [|d ds IH]; intros s; [reflexivity|]. cbn [fold_left List.concat]. rewrite fold_left_app. apply IH. Qed.

Lemma pairs_in r w f : In (w, f) (pairs r) <-> f = sget r w /\ exists v, In (w, v) r /\ v <> 0%Z.
Proof.
  unfold pairs. rewrite in_map_iff. split.
  - intros ([c v] & [= <- <-] & Hin). apply filter_In in Hin as [Hin Hv]. split; [reflexivity|]. exists v. split; [exact Hin|]. lia.
  - intros (-> & v & Hin & Hv). exists (w, v). split; [reflexivity|]. apply filter_In. split; [exact Hin|]. lia.
Qed.

Lemma occurs_pairs m w : occurs m w <-> In w (map fst (List.concat (map pairs (srows m)))).
Proof.
  unfold occurs. rewrite in_map_iff. split.
  - intros (r & v & Hr & Hin & Hv). exists (w, sget r w). split; [reflexivity|]. apply in_concat. exists (pairs r).
    split; [apply in_map; exact Hr|]. apply pairs_in. eauto.
  - intros ([w' f] & <- & Hin). cbn [fst]. apply in_concat in Hin as (l & Hl & Hin). apply in_map_iff in Hl as (r & <- & Hr).
    apply pairs_in in Hin as (_ & v & Hin & Hv). exists r, v. auto.
Qed.

(** The dictionary's tokens are the decimal numbers of all words up to the last that
    occurs, each with its own index. *)
Theorem C245_tokens : forall words, exists n,
  token2id (gensim_dictionary words) = map (fun i => (str i, i)) (seq 0 n) /\
  (forall w, occurs words w -> w < n) /\ (0 < n -> occurs words (n - 1)).
Proof.
  intros words. unfold gensim_dictionary, from_corpus. rewrite fold_concat.
  destruct (add_pairs (List.concat (map pairs (srows words))) 0%Z (fun _ => 0) None) as (df' & mx' & E & _ & Hm). rewrite E. cbn [token2id].
  exists (match mx' with None => 0 | Some m => m + 1 end). split; [reflexivity|]. split.
  - intros w Hw%occurs_pairs. destruct mx' as [m|].
    + destruct Hm as [_ Hm]. specialize (Hm w (or_intror Hw)). lia.
    + destruct Hm as [_ Hm]. rewrite Hm in Hw. destruct Hw.
  - intros Hn. destruct mx' as [m|]; [|lia]. destruct Hm as [[Hm|Hm] _]; [discriminate|].
    replace (m + 1 - 1) with m by lia. apply occurs_pairs. exact Hm.
Qed.

(** So it has a token for every column exactly when the last word occurs. *)
Theorem C245_covers_vocabulary : forall words, swf words -> 0 < scols words ->
  (token2id (gensim_dictionary words) = map (fun i => (str i, i)) (seq 0 (scols words)) <-> occurs words (scols words - 1)).
Proof.
  intros words W P. destruct (C245_tokens words) as (n & E & H1 & H2). rewrite E.
  assert (Hb : forall w, occurs words w -> w < scols words).
  { intros w (r & v & Hr & Hin & _). unfold swf in W. rewrite Forall_forall in W. specialize (W r Hr). rewrite Forall_forall in W. exact (W _ Hin). }
  split.
  - intros Eq. apply (f_equal (@List.length _)) in Eq. rewrite !map_length, !seq_length in Eq. subst n. apply H2. exact P.
  - intros Ho. specialize (H1 _ Ho). destruct (Nat.eq_dec n 0) as [->|]; [lia|]. specialize (Hb _ (H2 ltac:(lia))).
    assert (n = scols words) as -> by lia. reflexivity.
Qed.

(** Its statistics are those of the corpus. *)
Lemma sget_one (r : list (nat * Z)) w v : NoDup (map fst r) -> In (w, v) r -> sget r w = v.
Proof.
  unfold sget. induction r as [|[c x] r IH]; intros N Hin; [destruct Hin|]. cbn [map fst] in N. inversion N as [|? ? Hc N']; subst.
  cbn [filter fst]. destruct (Nat.eqb_spec c w) as [->|Hne].
  - assert (F : filter (fun e : nat * Z => fst e =? w) r = []).
    { clear -Hc. induction r as [|[c y] r IH]; [reflexivity|]. cbn in Hc. cbn [filter fst]. destruct (Nat.eqb_spec c w) as [->|]; [exfalso; auto|].
      apply IH. auto. }
    rewrite F. cbn [map snd sumZ]. destruct Hin as [[= ->]|Hin]; [lia|]. exfalso. apply Hc. apply in_map_iff. exists (w, v). auto.
  - destruct Hin as [[= -> ->]|Hin]; [contradiction|]. apply IH; assumption.
Qed.

Lemma pairs_sum (r : list (nat * Z)) : NoDup (map fst r) -> pairs r = filter (fun e => negb (snd e =? 0)%Z) r.
Proof.
  intros N. unfold pairs.
  assert (G : forall l : list (nat * Z), (forall w v, In (w, v) l -> In (w, v) r) ->
    map (fun '(c, _) => (c, sget r c)) (filter (fun '(_, v) => negb (v =? 0)%Z) l) = filter (fun e => negb (snd e =? 0)%Z) l).
  { induction l as [|[c v] l IH]; intros H; [reflexivity|]. cbn [filter snd]. destruct (negb (v =? 0)%Z).
    - cbn [map]. rewrite IH by (intros; apply H; right; assumption). rewrite (sget_one r c v N (H c v (or_introl eq_refl))). reflexivity.
    - apply IH. intros; apply H; right; assumption. }
  apply G. auto.
Qed.

Lemma row_sum_nonzero (r : list (nat * Z)) : sumZ (map snd (filter (fun e => negb (snd e =? 0)%Z) r)) = row_sum r.
Proof.
  unfold row_sum. induction r as [|[c v] r IH]; [reflexivity|]. cbn [filter snd map]. destruct (Z.eqb_spec v 0) as [->|]; cbn [negb].
  - rewrite IH. reflexivity.
  - cbn [map snd sumZ]. rewrite IH. reflexivity.
Qed.

Lemma filter_word (r : list (nat * Z)) w : NoDup (map fst r) ->
  List.length (filter (fun p : nat * Z => fst p =? w) (pairs r)) = if (mget (mkS [r] 0) 0 w =? 0)%Z then 0 else 1.
Proof.
  intros N. rewrite (pairs_sum r N). cbn [mget srows nth_error].
  assert (D : (exists v, In (w, v) r) \/ forall v, ~ In (w, v) r).
  { clear N. induction r as [|[c x] r IH]; [right; intros v []|]. destruct (Nat.eq_dec c w) as [->|Hne]; [left; exists x; left; reflexivity|].
    destruct IH as [[v Hv]|Hn]; [left; exists v; right; exact Hv|]. right. intros v [[= -> ->]|Hv]; [auto|exact (Hn v Hv)]. }
  assert (Z0 : (forall v, ~ In (w, v) r) -> sget r w = 0%Z /\ filter (fun p : nat * Z => fst p =? w) (filter (fun e => negb (snd e =? 0)%Z) r) = []).
  { clear. intros H. unfold sget. induction r as [|[c x] r IH]; [split; reflexivity|]. destruct IH as [I1 I2]; [intros v Hv; apply (H v); right; exact Hv|].
    cbn [filter fst snd]. destruct (Nat.eqb_spec c w) as [->|Hne]; [exfalso; apply (H x); left; reflexivity|]. split; [exact I1|].
    destruct (negb (x =? 0)%Z); [|exact I2]. cbn [filter fst]. rewrite (proj2 (Nat.eqb_neq c w) Hne). exact I2. }
  destruct D as [[v Hv]|Hn]; [|destruct (Z0 Hn) as [-> ->]; reflexivity].
  rewrite (sget_one r w v N Hv). clear Z0. revert N Hv. induction r as [|[c x] r IH]; intros N Hv; [destruct Hv|].
  cbn [map fst] in N. inversion N as [|? ? Hc N']; subst. destruct Hv as [[= -> ->]|Hv].
  - assert (F : filter (fun p : nat * Z => fst p =? w) (filter (fun e => negb (snd e =? 0)%Z) r) = []).
    { clear -Hc. induction r as [|[c x] r IH]; [reflexivity|]. cbn in Hc. cbn [filter snd].
      destruct (negb (x =? 0)%Z); cbn [filter fst]; [|apply IH; auto]. destruct (Nat.eqb_spec c w) as [->|]; [exfalso; auto|]. apply IH; auto. }
    cbn [filter snd]. destruct (v =? 0)%Z; cbn [negb]; [rewrite F; reflexivity|]. cbn [filter fst]. rewrite Nat.eqb_refl, F. reflexivity.
  - assert (c <> w) by (intros ->; apply Hc; apply in_map_iff; exists (w, v); auto).
    cbn [filter snd]. destruct (negb (x =? 0)%Z); cbn [filter fst]; [rewrite (proj2 (Nat.eqb_neq c w)) by assumption|]; apply IH; assumption.
Qed.

Theorem C245_statistics : forall words, canonical words ->
  let dct := gensim_dictionary words in
  num_docs dct = nrows words /\
  num_nnz dct = list_sum (map (fun r => row_nnz r) (srows words)) /\
  num_pos dct = sumZ (map (fun r => row_sum r) (srows words)) /\
  (forall w, dfs dct w = List.length (filter (fun d => negb (mget words d w =? 0)%Z) (seq 0 (nrows words)))).
Proof.
  intros words N. unfold gensim_dictionary, from_corpus. rewrite fold_concat.
  destruct (add_pairs (List.concat (map pairs (srows words))) 0%Z (fun _ => 0) None) as (df' & mx' & E & Hd & _). rewrite E.
  cbn [num_docs num_nnz num_pos dfs]. cbv zeta. unfold canonical, nrows, mget in *. split; [apply map_length|].
  clear E mx'. split; [|split].
  - f_equal. rewrite map_map. apply map_ext_in. intros r Hr. rewrite Forall_forall in N. rewrite pairs_sum by (apply N; exact Hr). reflexivity.
  - rewrite Z.add_0_l. clear Hd. induction N as [|r rs Nr N IH]; [reflexivity|]. cbn [map List.concat]. rewrite map_app, sumZ_app, IH.
    rewrite pairs_sum, row_sum_nonzero by exact Nr. reflexivity.
  - intros w. rewrite Hd. cbn [Nat.add]. clear Hd df'. induction N as [|r rs Nr N IH]; [reflexivity|].
    cbn [map List.concat List.length seq]. rewrite filter_app, app_length, IH, filter_word by exact Nr.
    cbn [filter nth_error mget srows]. rewrite <- seq_shift.
    assert (G : forall l, List.length (filter (fun d => negb (match nth_error (r :: rs) d with Some r0 => sget r0 w | None => 0 end =? 0)%Z) (map S l))
      = List.length (filter (fun d => negb (match nth_error rs d with Some r0 => sget r0 w | None => 0 end =? 0)%Z) l)).
    { induction l as [|d l IHl]; [reflexivity|]. cbn [map filter nth_error]. destruct (negb _); cbn [List.length]; rewrite IHl; reflexivity. }
    cbn [nth_error]. destruct (sget r w =? 0)%Z; cbn [negb List.length]; rewrite G; reflexivity.
Qed.

(** A vocabulary of three words of which the last does not occur: two tokens.  None is
    called as documented. *)
Theorem C245_vocabulary_refuted : exists words,
  swf words /\ canonical words /\ scols words = 3 /\ occurs words 1 /\
  token2id (gensim_dictionary words) = [("0"%string, 0); ("1"%string, 1)].
Proof.
  exists (mkS [[(0, 2%Z)]; [(0, 1%Z); (1, 1%Z)]] 3). split; [repeat constructor|]. split.
  { repeat constructor; cbn; intuition discriminate. }
  split; [reflexivity|]. split; [|reflexivity]. exists [(0, 1%Z); (1, 1%Z)], 1%Z. cbn. split; [auto|]. split; [auto|discriminate].
Qed.

(** The names are those of numbers, never those of the documentation. *)
Theorem C245_names_refuted : forall words tok id,
  In (tok, id) (token2id (gensim_dictionary words)) -> tok = str id /\ tok <> ("word-" ++ str id)%string.
Proof.
  intros words tok id H. destruct (C245_tokens words) as (n & E & _). rewrite E in H. apply in_map_iff in H as (i & [= <- <-] & _).
  split; [reflexivity|]. intros Eq. apply (f_equal String.length) in Eq. cbn [String.append String.length] in Eq.
  lia.
Qed.

(** Topics learned with the dictionary of one corpus, and a corpus with a later word:
    scoring given topics of its documents reads outside the memory of the topics. *)
Theorem C245_scores_refuted : forall tiny words K mem A B i j v,
  let C := topics_of (gensim_dictionary words) K F64 mem in
  0 < K -> whole C -> vwf A -> whole B -> d_type B = F64 -> d_cols B = K ->
  In (i, j, v) (entries A) -> (forall w, occurs words w -> w < j) ->
  sparse_op tiny SafeLn F64 A B C = Raise MemoryOOB.
Proof.
  intros tiny words K mem A B i j v C HK WC WA WB TB KB Hin Hj.
  destruct (C245_tokens words) as (n & E & H1 & H2).
  assert (Hn : n <= j). { destruct (Nat.eq_dec n 0) as [->|]; [lia|]. specialize (Hj _ (H2 ltac:(lia))). lia. }
  apply C246_reads_inside; auto.
  - lia.
  - exists i, j, v. split; [exact Hin|]. right. unfold C, topics_of. cbn [d_cols]. rewrite E, map_length, seq_length. exact Hn.
Qed.
Example C245_case : let words := mkS [[(0, 2%Z); (2, 1%Z)]; [(2, 4%Z)]] 3 in
  let d := gensim_dictionary words in
  num_docs d = 2 /\ num_nnz d = 3 /\ num_pos d = 7%Z /\ dfs d 2 = 2 /\ dfs d 1 = 0 /\
  token2id d = [("0"%string, 0); ("1"%string, 1); ("2"%string, 2)].
Proof. repeat split. Qed.
Example C245_scores_case : forall tiny,
  sparse_op tiny SafeLn F64 (mkV [0; 1] [2] [1%R] 3) (mkDense F64 1 2 [1; 1]%R)
    (topics_of (gensim_dictionary (mkS [[(0, 2%Z)]; [(0, 1%Z); (1, 1%Z)]] 3)) 2 F64 [1; 1; 1; 1]%R) = Raise MemoryOOB.
Proof. reflexivity. Qed.

Print Assumptions C246_values.
Print Assumptions C246_operations.
Print Assumptions C246_reads_inside.
Print Assumptions C246_shapes_checked_refuted.
Print Assumptions C246_inner_dimension_refuted.
Print Assumptions C247_which_types_work.
Print Assumptions C247_whole_numbers.
Print Assumptions C247_counts_refuted.
Print Assumptions C245_tokens.
Print Assumptions C245_covers_vocabulary.
Print Assumptions C245_statistics.
Print Assumptions C245_vocabulary_refuted.
Print Assumptions C245_names_refuted.
Print Assumptions C245_scores_refuted.
