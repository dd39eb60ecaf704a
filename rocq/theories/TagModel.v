(** * Model of the hashtags that the command line's hashtag evaluation asks about:
    popular_hashtag_indices, run/__main__.py lines 321-332, called in line 265 with the
    dictionary of words loaded from a file. *)
From Coq Require Import List ZArith Arith Bool String Ascii.
From Verif Require Import Base SparseModel RunModel.
Import ListNotations.
Open Scope nat_scope.

(** w[0] == '#', line 330. *)
Definition is_hashtag (w : string) : res bool :=
  match w with EmptyString => Raise IndexError | String c _ => Ok (Ascii.eqb c "#"%char) end.
Definition hashtags (word_dict : list string) : res (list string) :=
  do marks <- mapM is_hashtag word_dict;
  Ok (map fst (filter snd (combine word_dict marks))).

(** word_dict.index(h), line 331: the first position. *)
Fixpoint index_of (h : string) (l : list string) : res nat :=
  match l with
  | [] => Raise ValueError
  | w :: r => if String.eqb h w then Ok 0 else do i <- index_of h r; Ok (S i)
  end.

(** Lines 330-332; data.words[:, word_indices] of line 344 raises for columns that are not
    there. *)
Definition popular_hashtag_indices (argsort : list Z -> list nat) (words : smat) (word_dict : list string) (count : nat) : res (list nat) :=
  do hs <- hashtags word_dict;
  do is <- mapM (fun h => index_of h word_dict) hs;
  if forallb (fun i => i <? scols words) is then Ok (popular_indices argsort words is count) else Raise IndexError.
