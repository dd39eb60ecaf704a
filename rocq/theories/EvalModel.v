(** * Model of the ranking metrics in /repo/sidetopics/model/evals.py and of
    combine_map in /repo/sidetopics/run/__main__.py.  Sums and quotients are
    exact rationals instead of doubles. *)
From Coq Require Import List ZArith QArith Arith Bool.
From Verif Require Import Base.
Import ListNotations.
Open Scope nat_scope.

(** A document: the stored column indices of its row of expected_links, and the
    stored (column, score) pairs of its row of estim_link_probs. *)
Definition doc : Type := list nat * list (nat * Q).

(** The lines
      ind = np.argsort(row.data); recv_indices = row.indices[ind[::-1]]
    (60-61, 144-145, 223-224).  [argsort] is an argument: numpy's default sort
    does not fix the order of equal scores. *)
Definition ranking (argsort : list Q -> list nat) (row : list (nat * Q)) : list nat :=
  map (fun i => nth i (map fst row) 0) (rev (argsort (map snd row))).

(** len(set(a) & set(b)), len(set(a)). *)
Definition pyset (l : list nat) : list nat := nodup Nat.eq_dec l.
Definition common (a b : list nat) : nat :=
  length (filter (fun x => existsb (Nat.eqb x) (pyset b)) (pyset a)).

(** Python's a / b on integers. *)
Definition qdiv (a b : nat) : res Q :=
  if b =? 0 then Raise ZeroDivisionError
  else Ok (inject_Z (Z.of_nat a) / inject_Z (Z.of_nat b))%Q.

Fixpoint sum_res {A} (f : A -> res Q) (l : list A) : res Q :=
  match l with
  | [] => Ok 0%Q
  | a :: r => do x <- f a; do s <- sum_res f r; Ok (x + s)%Q
  end.

(** ** mean_average_prec, lines 182-256 *)

(** Lines 231-235: position of [e], or the length if it is absent. *)
Fixpoint find_pos (e : nat) (l : list nat) : nat :=
  match l with
  | [] => 0
  | a :: r => if a =? e then 0 else S (find_pos e r)
  end.

(** Lines 231-243. *)
Definition prec_at (recv expt : list nat) (e : nat) : res Q :=
  let m := find_pos e recv in
  let recv_set := firstn (m + 1) recv in
  qdiv (common recv_set expt) (length (pyset recv_set)).

(** Lines 216-250. *)
Definition average_prec (argsort : list Q -> list nat) (d : doc) : res Q :=
  let '(expt, row) := d in
  match expt with
  | [] => Ok 0%Q
  | _ => let recv := ranking argsort row in
         do s <- sum_res (prec_at recv expt) expt;
         Ok (s / inject_Z (Z.of_nat (length expt)))%Q
  end.

Definition mean_average_prec (argsort : list Q -> list nat) (docs : list doc) : res Q :=
  do s <- sum_res (average_prec argsort) docs;
  if length docs =? 0 then Raise ZeroDivisionError
  else Ok (s / inject_Z (Z.of_nat (length docs)))%Q.

(** ** mean_reciprocal_rank, lines 34-77 *)

(** The inner loop, lines 66-72: deletes the match, then still advances, so the
    element moved into its place is skipped.  Returns what is left of the list
    and the number of matches. *)
Fixpoint mrr_scan (r : nat) (expt : list nat) : list nat * nat :=
  match expt with
  | [] => ([], 0)
  | e :: rest =>
    if r =? e
    then match rest with
         | [] => ([], 1)
         | skipped :: rest' => let '(l, n) := mrr_scan r rest' in (skipped :: l, S n)
         end
    else let '(l, n) := mrr_scan r rest in (e :: l, n)
  end.

(** The outer loop, lines 64-73; [r] is the zero-based rank of the head.
    Result: sum of reciprocal ranks, number of matches. *)
Fixpoint mrr_loop (r : nat) (recv expt : list nat) : Q * nat :=
  match recv with
  | [] => (0%Q, 0)
  | x :: recv' =>
    match expt with
    | [] => (0%Q, 0)
    | _ => let '(expt', n) := mrr_scan x expt in
           let '(s, c) := mrr_loop (S r) recv' expt' in
           ((inject_Z (Z.of_nat n) * (1 / inject_Z (Z.of_nat (r + 1))) + s)%Q, n + c)
    end
  end.

Definition mrr_doc (argsort : list Q -> list nat) (d : doc) : Q * nat :=
  mrr_loop 0 (ranking argsort (snd d)) (fst d).

Definition mean_reciprocal_rank (argsort : list Q -> list nat) (docs : list doc) : res Q :=
  let rank_sum := fold_right Qplus 0%Q (map (fun d => fst (mrr_doc argsort d)) docs) in
  let rank_count := sumN (map (fun d => snd (mrr_doc argsort d)) docs) in
  if rank_count =? 0 then Raise ZeroDivisionError
  else Ok (rank_sum / inject_Z (Z.of_nat rank_count))%Q.

(** ** mean_prec_rec_at, lines 80-179.  The values of m are non-negative. *)
Definition group : Type := (Z * Z)%type.
Definition AllGroups : group := (-1, -1)%Z.
Definition geqb (a b : group) : bool := ((fst a =? fst b) && (snd a =? snd b))%Z.

(** find_group, lines 108-114: runs off the end of the list. *)
Fixpoint find_group (n : nat) (groups : list group) : res group :=
  match groups with
  | [] => Raise IndexError
  | g :: rest =>
    if ((fst g =? fst AllGroups) || (Z.of_nat n <? fst g) || (snd g <? Z.of_nat n))%Z%bool
    then find_group n rest else Ok g
  end.

(** The three dictionaries, keyed by group: precision sums, recall sums, counts. *)
Record tally := mkT { tprec : list Q; trec : list Q; tcount : nat }.
Definition dict (A : Type) : Type := list (group * A).

Fixpoint lookup {A} (g : group) (d : dict A) : option A :=
  match d with
  | [] => None
  | (h, a) :: r => if geqb g h then Some a else lookup g r
  end.

Fixpoint update {A} (g : group) (f : A -> A) (d : dict A) : dict A :=
  match d with
  | [] => []
  | (h, a) :: r => if geqb g h then (h, f a) :: r else (h, a) :: update g f r
  end.

(** Keys of a dict comprehension: first occurrences. *)
Fixpoint keys (groups : list group) : list group :=
  match groups with
  | [] => []
  | g :: r => g :: filter (fun h => negb (geqb g h)) (keys r)
  end.

(** Lines 150-164 for one m: precision and recall to be added. *)
Definition prec_rec (recv expt : list nat) (m : nat) : res (Q * Q) :=
  let top := firstn (m + 1) recv in
  if length (pyset top) =? 0 then Ok (0%Q, 0%Q)
  else do p <- qdiv (common top expt) m;
       do r <- qdiv (common top expt) (length (pyset expt));
       Ok (p, r).

Fixpoint add_lists (a b : list Q) : list Q :=
  match a, b with
  | x :: a', y :: b' => (x + y)%Q :: add_lists a' b'
  | _, _ => a
  end.

Definition add_tally (ps rs : list Q) (t : tally) : tally :=
  mkT (add_lists (tprec t) ps) (add_lists (trec t) rs) (S (tcount t)).

(** The body of the document loop, lines 136-167. *)
Definition prec_rec_doc (argsort : list Q -> list nat) (ms : list nat) (groups : list group)
           (t : dict tally) (d : doc) : res (dict tally) :=
  let '(expt, row) := d in
  match expt with
  | [] => Ok t
  | _ =>
    do g <- find_group (length expt) groups;
    let recv := ranking argsort row in
    do prs <- mapM (prec_rec recv expt) ms;
    let add := add_tally (map fst prs) (map snd prs) in
    Ok (update AllGroups add (update g add t))
  end.

Fixpoint foldM {A S} (f : S -> A -> res S) (s : S) (l : list A) : res S :=
  match l with
  | [] => Ok s
  | a :: r => do s' <- f s a; foldM f s' r
  end.

(** Lines 170-175. *)
Definition finish (t : tally) : tally :=
  let n := inject_Z (Z.of_nat (Nat.max 1 (tcount t))) in
  mkT (map (fun p => p / n)%Q (tprec t)) (map (fun r => r / n)%Q (trec t)) (tcount t).

(** Lines 123-126: the list of groups that is used, and (second component) the
    caller's list after the call, if the caller passed one. *)
Definition all_groups (groups : option (list group)) : list group :=
  let gs := match groups with None => [AllGroups] | Some gs => gs end in
  if existsb (geqb AllGroups) gs then gs else gs ++ [AllGroups].

Definition caller_groups (groups : option (list group)) : option (list group) :=
  match groups with None => None | Some gs => Some (all_groups (Some gs)) end.

Definition mean_prec_rec_at (argsort : list Q -> list nat) (at_ : option (list nat))
           (groups : option (list group)) (docs : list doc) : res (dict tally) :=
  let ms := match at_ with None => [100] | Some ms => ms end in
  let gs := all_groups groups in
  let zero := repeat 0%Q (length ms) in
  do t <- foldM (prec_rec_doc argsort ms gs) (map (fun g => (g, mkT zero zero 0)) (keys gs)) docs;
  Ok (map (fun '(g, x) => (g, finish x)) t).

(** ** combine_map, run/__main__.py lines 1176-1194.  One fold's result: means
    and counts per group. *)
Definition avgs : Type := dict (list Q).
Definition counts : Type := dict nat.

Definition get_key {A} (g : group) (d : dict A) : res A :=
  match lookup g d with Some a => Ok a | None => Raise KeyError end.

Definition combine_counts (old new : counts) : res counts :=
  mapM (fun '(g, c) => do n <- get_key g new; Ok (g, c + n)) old.

Definition weighted (oc nc uc : nat) (o n : Q) : res Q :=
  if uc =? 0 then Raise ZeroDivisionError
  else Ok ((o * inject_Z (Z.of_nat oc) + n * inject_Z (Z.of_nat nc)) / inject_Z (Z.of_nat uc))%Q.

Definition combine_map (old : option (avgs * counts)) (new : avgs * counts) : res (avgs * counts) :=
  match old with
  | None => Ok new
  | Some (oa, oc) =>
    let '(na, nc) := new in
    do uc <- combine_counts oc nc;
    do ua <- mapM (fun '(g, lst) =>
                     do nl <- get_key g na;
                     do l <- mapM (fun '(o, n) =>
                                     do c1 <- get_key g oc;
                                     do c2 <- get_key g nc;
                                     do c3 <- get_key g uc;
                                     weighted c1 c2 c3 o n) (combine lst nl);
                     Ok (g, l)) oa;
    Ok (ua, uc)
  end.

(** The loops that use it (lines 654-655, 915-916, 1011-1012, 1119-1120): start with None. *)
Definition combine_folds (results : list (avgs * counts)) : res (option (avgs * counts)) :=
  foldM (fun old new => do r <- combine_map old new; Ok (Some r)) None results.
