(** * Model of the functions that split a dataset or matrix in two:
    /repo/sidetopics/model/common.py lines 440-743 and
    /repo/sidetopics/run/__main__.py lines 704-743. *)
From Coq Require Import List ZArith QArith Qround Arith Bool.
From Verif Require Import Base SparseModel DatasetModel.
Import ListNotations.
Open Scope nat_scope.

(** np.around: round to nearest, ties to even, over exact rationals. *)
Definition around (q : Q) : Z :=
  let f := Qfloor q in
  let d := (q - inject_Z f)%Q in
  match Qcompare d (1 # 2) with
  | Lt => f
  | Gt => (f + 1)%Z
  | Eq => if Z.even f then f else (f + 1)%Z
  end.

(** common.py lines 469-473, one stored count: (estimation, evaluation).
    [dat] is the count, [j] the random jitter. *)
Definition complete_count (est_prop : Q) (j : Q) (dat : Z) : Z * Z :=
  let est := around ((inject_Z dat + j) * est_prop)%Q in
  (est, (dat - est)%Z).

(** The jitter of line 470 has one value per stored entry, in storage order:
    entry number k gets [jitter k] (an arbitrary function, for the normal
    distribution has unbounded support). [k] is the number of the first entry. *)
Fixpoint complete_row (est_prop : Q) (jitter : nat -> Q) (k : nat) (r : srow) : srow * srow :=
  match r with
  | [] => ([], [])
  | (c, v) :: r' =>
    let '(est, evl) := complete_count est_prop (jitter k) v in
    let '(a, b) := complete_row est_prop jitter (S k) r' in
    ((c, est) :: a, (c, evl) :: b)
  end.

Fixpoint complete_rows_from (est_prop : Q) (jitter : nat -> Q) (k : nat) (rs : list srow)
  : list srow * list srow :=
  match rs with
  | [] => ([], [])
  | r :: rs' =>
    let '(a, b) := complete_row est_prop jitter k r in
    let '(xs, ys) := complete_rows_from est_prop jitter (k + length r) rs' in
    (a :: xs, b :: ys)
  end.

(** doc_completion_split, common.py lines 440-499.  The word matrix has a signed
    integer (or floating) dtype, so that the casts of lines 475-476 are exact.
    Line 491 formats three values with one argument: TypeError. *)
Definition doc_completion_split (min_unique : Q) (jitter : nat -> Q) (est_prop : Q)
           (ds : dataset) : res (dataset * dataset) :=
  match feats ds with
  | Some _ => Ok (ds, ds)
  | None =>
    let '(tr, qu) := complete_rows_from est_prop jitter 0 (srows (words ds)) in
    let wt := mkS tr (scols (words ds)) in
    let wq := mkS qu (scols (words ds)) in
    let t_good := good_rows wt min_unique in
    let q_good := good_rows wq min_unique in
    let tq_good := filter (fun i => existsb (Nat.eqb i) q_good) t_good in
    if negb (Qle_bool min_unique 0) && negb (length tq_good =? nrows wt)
    then Raise TypeError
    else
      do a <- construct wt (feats ds) (links ds) (dict ds) (cats ds) None 0;
      do b <- construct wq (feats ds) (links ds) (dict ds) (cats ds) None 0;
      Ok (a, b)
  end.

(** ** Compressed rows, as the three arrays of scipy. *)
Record csr := mkCSR { cptr : list nat; cind : list nat; cdat : list Z; ccols : nat }.

Definition crows (X : csr) : nat := length (cptr X) - 1.

(** numpy slice [l[a:b]], non-negative bounds. *)
Definition slice {A} (l : list A) (a b : nat) : list A := firstn (b - a) (skipn a l).

(** The stored entries of row [i]. *)
Definition csr_row (X : csr) (i : nat) : srow :=
  let a := nth i (cptr X) 0 in
  let b := nth (S i) (cptr X) 0 in
  combine (slice (cind X) a b) (slice (cdat X) a b).

Definition csr_smat (X : csr) : smat := mkS (map (csr_row X) (seq 0 (crows X))) (ccols X).

Definition csr_wf (X : csr) : Prop :=
  hd_error (cptr X) = Some 0 /\
  (forall i, S i < length (cptr X) -> nth i (cptr X) 0 <= nth (S i) (cptr X) 0) /\
  last (cptr X) 0 = length (cind X) /\ length (cind X) = length (cdat X) /\
  Forall (fun c => c < ccols X) (cind X).

(** _folded_split, common.py lines 678-743.  Accumulator of one side: (ptr, ind,
    dat), the pointers in reverse.  [fold_id] is taken non-negative and
    [fold_count] positive.  Line 730: start is the running offset. *)
Record side := mkSide { sptr : list nat; sind : list nat; sdat : list Z }.

Definition side_add (s : side) (ind : list nat) (dat : list Z) (n : nat) : side :=
  mkSide (hd 0 (sptr s) + n :: sptr s) (sind s ++ ind) (sdat s ++ dat).

Definition fold_row (X : csr) (fold_id fold_count min_link : nat)
           (st : nat * side * side * list nat) (row : nat) : nat * side * side * list nat :=
  let '(start, L, R, docs) := st in
  let col_count := nth (row + 1) (cptr X) 0 - nth row (cptr X) 0 in
  let end_ := start + col_count in
  if col_count <? min_link then
    let cols := slice (cind X) start end_ in
    let vals := slice (cdat X) start end_ in
    (end_, side_add L cols vals (length cols), side_add R cols vals (length cols), docs)
  else
    let query_size := col_count / fold_count in
    let query_start := start + query_size * fold_id in
    let query_end := Nat.min (query_start + query_size) end_ in
    (end_,
     side_add L (slice (cind X) start query_start ++ slice (cind X) query_end end_)
                (slice (cdat X) start query_start ++ slice (cdat X) query_end end_)
                (col_count - query_size),
     side_add R (slice (cind X) query_start query_end) (slice (cdat X) query_start query_end)
                query_size,
     docs ++ [row]).

Definition folded_split (X : csr) (fold_id fold_count min_link : nat) : csr * csr * list nat :=
  let s0 := mkSide [0] [] [] in
  let '(_, L, R, docs) :=
    fold_left (fold_row X fold_id fold_count min_link) (seq 0 (crows X)) (0, s0, s0, []) in
  (mkCSR (rev (sptr L)) (sind L) (sdat L) (ccols X),
   mkCSR (rev (sptr R)) (sind R) (sdat R) (ccols X), docs).

(** folded_link_prediction_split, lines 526-547: symmetric splits raise. *)
Definition folded_link_split (symmetric : bool) (X : option csr) (fold_id fold_count min_link : nat)
  : res (csr * csr * list nat) :=
  match X with
  | None => Raise AssertionError
  | Some X => if symmetric then Raise ValueError
              else Ok (folded_split X fold_id fold_count min_link)
  end.

(** ** Random link split, lines 502-523, 601-675.  A Python number used as a
    slice bound: only integers are accepted. *)
Inductive pynum := PyInt (z : Z) | PyFloat (q : Q).

(** [a / b] of two Python integers is a float. *)
Definition true_div (a b : Z) : pynum := PyFloat (inject_Z a / inject_Z b)%Q.

Definition take_upto {A} (l : list A) (n : pynum) : res (list A) :=
  match n with
  | PyInt z => Ok (firstn (Z.to_nat z) l)
  | PyFloat _ => Raise TypeError
  end.

Definition drop_upto {A} (l : list A) (n : pynum) : res (list A) :=
  match n with
  | PyInt z => Ok (skipn (Z.to_nat z) l)
  | PyFloat _ => Raise TypeError
  end.

(** Coordinate triples (row, column, value) of a matrix. *)
Definition coo : Type := list (nat * nat * Z).

Definition to_coo (m : smat) : coo :=
  concat (map (fun '(i, r) => map (fun e => (i, fst e, snd e)) r)
              (combine (seq 0 (nrows m)) (srows m))).

(** Dense value at (i,j) of a coordinate list (tocsr sums duplicates). *)
Definition cooget (c : coo) (i j : nat) : Z :=
  sumZ (map snd (filter (fun '(a, b, _) => (a =? i) && (b =? j)) c)).

(** _split, lines 601-624.  [shuffle] permutes; np.sort is irrelevant here. *)
Definition split_links (shuffle : list nat -> list nat) (X : smat) : res (coo * coo) :=
  let c := to_coo X in
  let nnz := length c in
  let ind := shuffle (seq 0 nnz) in
  let split_point := true_div (Z.of_nat nnz) 2 in
  do left_ind <- take_upto ind split_point;
  do right_ind <- drop_upto ind split_point;
  do l <- select left_ind c;
  do r <- select right_ind c;
  Ok (l, r).

(** _symm_csr, lines 627-648, on coordinates. *)
Definition symm_csr (c : coo) : coo :=
  c ++ map (fun '(i, j, v) => (j, i, v)) c.

(** _split_symm, lines 651-675. *)
Definition split_symm (shuffle : list nat -> list nat) (X : smat) : res (coo * coo) :=
  let c := to_coo X in
  let ind := shuffle (where_ (fun '(i, j, _) => j <=? i) c) in
  let split_point := true_div (Z.of_nat (length ind)) 2 in
  do left_ind <- take_upto ind split_point;
  do right_ind <- drop_upto ind split_point;
  do l <- select left_ind c;
  do r <- select right_ind c;
  Ok (symm_csr l, symm_csr r).

(** link_prediction_split, lines 502-523 (the links of the two datasets). *)
Definition link_prediction_split (symmetric : bool) (shuffle : list nat -> list nat)
           (X : option smat) : res (coo * coo) :=
  match X with
  | None => Raise AssertionError
  | Some X => if symmetric then split_symm shuffle X else split_links shuffle X
  end.

(** ** split_on_feature, lines 549-582.  Features are the dense view, columns
    given by non-negative in-range indices (else IndexError). *)
Definition epsilon30 : Q := 1 # (10 ^ 30).

Definition qabs (q : Q) : Q := if Qle_bool 0 q then q else (- q)%Q.

Definition two_dim (m : option smat) (rows cols : list nat) : res (option smat) :=
  match m with
  | None => Raise TypeError
  | Some m => do r <- select_rows rows m; do c <- select_cols cols r; Ok (Some c)
  end.

Definition split_on_feature (ds : dataset) (features : list nat)
  : res (dataset * dataset * list nat) :=
  match feats ds with
  | None => Raise AssertionError
  | Some f =>
    match features with
    | [] => Raise AssertionError
    | f0 :: _ =>
      if negb (forallb (fun c => c <? fcols f) features) then Raise IndexError else
      let train := where_ (fun r => Qlt_bool (qabs (sumQ (map (fun c => nth c r 0%Q) features))) epsilon30)
                          (frows f) in
      let query := where_ (fun r => Qlt_bool epsilon30 (nth f0 r 0%Q)) (frows f) in
      do tw <- select_rows train (words ds);
      do tf <- select_frows train f;
      do tl <- two_dim (links ds) train train;
      do to <- select train (order ds);
      do t <- construct tw (Some tf) tl (dict ds) (cats ds) (Some to) 0;
      do qw <- select_rows query (words ds);
      do qf <- select_frows query f;
      do ql <- two_dim (links ds) query train;
      do qo <- select query (order ds);
      do q <- construct qw (Some qf) ql (dict ds) (cats ds) (Some qo) 0;
      Ok (t, q, train)
    end
  end.

(** ** Dropping columns, lines 585-598. *)

(** np.unique. *)
Definition unique_below (n : nat) (l : list nat) : list nat :=
  filter (fun c => existsb (Nat.eqb c) l) (seq 0 n).
Definition unique (l : list nat) : list nat := unique_below (S (list_max l)) l.

(** dropcols_fancy, lines 585-588. *)
Definition dropcols_fancy (M : smat) (drop : list nat) : res smat :=
  select_cols (filter (fun c => negb (existsb (Nat.eqb c) (unique drop))) (seq 0 (scols M))) M.

(** dropcols_coo, lines 591-598; searchsorted counts the smaller elements.  The
    final conversion to CSR raises ValueError for a negative shape. *)
Definition dropcols_coo (M : smat) (drop : list nat) : res smat :=
  let u := unique drop in
  if scols M <? length u then Raise ValueError else
  Ok (mkS (map (fun r => map (fun e => (fst e - length (filter (fun d => d <? fst e) u), snd e))
                             (filter (fun e => negb (existsb (Nat.eqb (fst e)) u)) r))
               (srows M))
          (scols M - length u)).

(** ** soft_split_on_indices, run/__main__.py lines 704-743.  [draw k] is the
    k-th value returned by rng.rand(); a draw is made only for entries in a
    selected column and only when removal_prob is below the cut-off.
    eliminate_zeros drops stored zeros. *)
Definition cutoff : Q := 99999999 # 100000000.

(** Does an entry in column [c] move, and the number of draws made afterwards. *)
Definition soft_move (cols : list nat) (draw : nat -> Q) (prob : Q) (k : nat) (c : nat) : bool * nat :=
  let sel := existsb (Nat.eqb c) cols in
  if Qle_bool cutoff prob then (sel, k)
  else if sel then (Qlt_bool (draw k) prob, S k) else (false, k).

Fixpoint soft_row (cols : list nat) (draw : nat -> Q) (prob : Q) (k : nat) (r : srow)
  : srow * srow * nat :=
  match r with
  | [] => ([], [], k)
  | (c, v) :: r' =>
    let '(move, k') := soft_move cols draw prob k c in
    let '(a, b, k'') := soft_row cols draw prob k' r' in
    ((c, if move then 0%Z else v) :: a, (c, if move then v else 0%Z) :: b, k'')
  end.

Fixpoint soft_rows (cols : list nat) (draw : nat -> Q) (prob : Q) (k : nat) (rs : list srow)
  : list srow * list srow :=
  match rs with
  | [] => ([], [])
  | r :: rs' =>
    let '(a, b, k') := soft_row cols draw prob k r in
    let '(xs, ys) := soft_rows cols draw prob k' rs' in
    (a :: xs, b :: ys)
  end.

Definition eliminate_zeros (rs : list srow) : list srow :=
  map (filter (fun e => negb (snd e =? 0)%Z)) rs.

Definition soft_split (cols : list nat) (draw : nat -> Q) (prob : Q) (M : smat) : smat * smat :=
  let '(a, b) := soft_rows cols draw prob 0 (srows M) in
  (mkS (eliminate_zeros a) (scols M), mkS (eliminate_zeros b) (scols M)).
