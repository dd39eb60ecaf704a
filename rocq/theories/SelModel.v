(** * Model of /repo/sidetopics/run/selectusers.py. *)
From Coq Require Import Ascii String List ZArith Arith Bool.
From Verif Require Import Base VecModel EvalModel StrModel.
Import ListNotations.
Open Scope nat_scope.
Open Scope list_scope.

(** ** read_counts, lines 13-50.  A dictionary is a list of pairs in the order of
    insertion. *)
Definition users : Type := list (list ascii * Z).
Definition groups : Type := list (list ascii * users).

(** Lines 25-28. *)
Fixpoint join_dots (l : list (list ascii)) : list ascii :=
  match l with
  | [] => []
  | [a] => a
  | a :: r => a ++ T "." ++ join_dots r
  end.
Definition has_dot (s : list ascii) : bool := existsb (fun c => if ascii_dec c "."%char then true else false) s.
Definition user_name (filename : list ascii) : list ascii :=
  strip (if has_dot filename then join_dots (removelast (split_on "."%char filename)) else filename).

(** Lines 36-39. *)
Fixpoint add_user (user : list ascii) (n : Z) (l : users) : users :=
  match l with
  | [] => [(user, n)]
  | (u, c) :: r => if teqb user u then (u, (c + n)%Z) :: r else (u, c) :: add_user user n r
  end.
(** Lines 30-34. *)
Fixpoint add_count (group user : list ascii) (n : Z) (l : groups) : groups :=
  match l with
  | [] => [(group, [(user, n)])]
  | (g, us) :: r => if teqb group g then (g, add_user user n us) :: r else (g, us) :: add_count group user n r
  end.
(** Line 24; [to_int] is int(). *)
Definition read_line (to_int : list ascii -> res Z) (l : groups) (line : list ascii) : res groups :=
  match split_on (ascii_of_nat 9) line with
  | [count; group; filename] => do n <- to_int count; Ok (add_count group (user_name filename) n l)
  | _ => Raise ValueError
  end.
(** Lines 41-48. *)
Definition keep_user (lo hi : Z) (u : list ascii * Z) : bool := ((lo <? snd u) && (snd u <? hi))%Z.
Definition read_counts (to_int : list ascii -> res Z) (lines : list (list ascii)) (lo hi : Z) : res groups :=
  do l <- foldM (read_line to_int) [] lines;
  Ok (map (fun '(g, us) => (g, filter (keep_user lo hi) us)) l).

(** ** select_group_contribs, lines 53-97.  A group is its position in the
    dictionary, [tots] the number of tweets in each (lines 65-67). *)
Definition group_totals (l : groups) : list Z := map (fun '(_, us) => sumZ (map snd us)) l.

Record state := mkSt { counts : list Z; contribs : list Z; cands : list nat; assigned : Z }.

(** One pass of the loop body, lines 84-94, for the group at position [i] of the
    list that is being iterated over. *)
Definition take (gt : Z) (g : nat) (st : state) : state :=
  let have := nth g (counts st) 0%Z in
  let x := if (have <? gt)%Z then have else gt in
  let have' := if (have <? gt)%Z then 0%Z else (have - gt)%Z in
  mkSt (set_at (counts st) g have') (set_at (contribs st) g (nth g (contribs st) 0 + x)%Z)
       (if (have' =? 0)%Z then remove Nat.eq_dec g (cands st) else cands st)
       (assigned st + x).

(** Lines 83-94.  The list is iterated over by position while groups are removed
    from it; [n] is at least the number of passes left. *)
Fixpoint for_groups (n : nat) (gt : Z) (i : nat) (st : state) : state :=
  match n with
  | 0 => st
  | S n' =>
    match nth_error (cands st) i with
    | None => st
    | Some g => for_groups n' gt (S i) (take gt g st)
    end
  end.

(** Lines 81-94; [None] when [fuel] rounds were not enough. *)
Fixpoint while_short (fuel : nat) (target : Z) (st : state) : option (res (list Z)) :=
  match fuel with
  | 0 => None
  | S f =>
    if (assigned st <? target)%Z then
      match length (cands st) with
      | 0 => Some (Raise ZeroDivisionError)
      | n => while_short f target
               (for_groups n (1 + (target - assigned st) / Z.of_nat n)%Z 0 st)
      end
    else Some (Ok (contribs st))
  end.

Definition select_group_contribs (fuel : nat) (tots : list Z) (target : Z) : option (res (list Z)) :=
  let min_count := fold_left (fun m t => if (t <? m)%Z then t else m) tots 3000000000%Z in
  match length tots with
  | 0 => Some (Raise ZeroDivisionError)
  | n =>
    let gt := (target / Z.of_nat n)%Z in
    if (gt <? min_count)%Z then Some (Ok (map (fun _ => gt) tots))
    else while_short fuel target (mkSt tots (map (fun _ => 0%Z) tots) (seq 0 n) 0)
  end.

(** ** select_users, lines 100-123, with SortTweet = False (line 10): the last
    user first.  [rusers] is the list of the group's users in reverse. *)
Fixpoint take_users (contrib acc : Z) (rusers : users) : users :=
  match rusers with
  | [] => []
  | u :: r => if (acc <? contrib)%Z then u :: take_users contrib (acc + snd u) r else []
  end.
Definition select_in_group (us : users) (contrib : Z) : users := take_users contrib 0 (rev us).
Definition select_users (l : groups) (contribs : list Z) : list (list ascii) :=
  flat_map (fun '((_, us), c) => map fst (select_in_group us c)) (combine l contribs).
