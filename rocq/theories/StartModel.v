(** * Model of the states that training starts from: newModelAtRandom of
    /repo/sidetopics/model/ctm_bohning.py lines 94-136 (used by stm_yv_bohning.py line 109
    and stm_yv_bohning_fake_online.py line 111), ctm.py lines 80-114 (used by stm_yv.py
    line 114), mtm2.py lines 103-138 and mtm3.py lines 119-155; newQueryState of mtm2.py
    lines 140-162 and mtm3.py lines 237-271; states made from a model of latent Dirichlet
    allocation, mtm3.py lines 102-117, 157-169 and 204-234.

    A document is the list of its stored words and counts, as in VbModel; [draw i] is the
    i-th document drawn.  Real numbers. *)
From Coq Require Import List Reals Arith Bool.
From Verif Require Import Base RealModel VbModel LinkModel CtmModel MtmModel.
Import ListNotations.
Open Scope nat_scope.

(** vocab[k, doc.indices] += doc.data: of a word stored twice the last count is added. *)
Definition add_doc (row : vec) (doc : words) : vec := fun t =>
  match fold_left (fun acc '(u, x) => if u =? t then Some x else acc) doc None with
  | Some x => (row t + x)%R
  | None => row t
  end.

(** mtm2.py lines 117-128 and mtm3.py lines 132-146.  rd.randint(0, 0) raises ValueError. *)
Definition mtm_new (K T : nat) (docs : list words) (draw : nat -> nat) : res (list vec) :=
  if 1 <? K then
    match docs with
    | [] => Raise ValueError
    | _ => Ok (map (fun k => let row := add_doc (fun _ => 1%R) (nth (draw k) docs []) in fun t => (row t / vsum T row)%R) (seq 0 K))
    end
  else Raise AssertionError.

(** ctm.py lines 94-105; [fuel] bounds the documents drawn for one topic. *)
Definition bouchard_new (fuel K T : nat) (docs : list words) (draw : nat -> nat) : option (res (list vec)) :=
  if 1 <? K then seed_topics fuel K T docs draw 0 else Some (Raise AssertionError).

(** data.words.sum(axis=0). *)
Definition word_total (docs : list words) : vec := fun t =>
  rsum (map (fun doc : words => rsum (map (fun '(u, x) => if u =? t then x else 0%R) doc)) docs).
(** ctm_bohning.py lines 108-125: topics 1 to K-1 are seeded, topic 0 is that of all words. *)
Definition ctm_new (fuel K T : nat) (docs : list words) (draw : nat -> nat) : option (res (list vec)) :=
  if 1 <? K then
    match seed_topics fuel (K - 1) T docs draw 0 with
    | Some (Ok rows) => let w := word_total docs in Some (Ok ((fun t => (w t / vsum T w)%R) :: rows))
    | o => o
    end
  else Some (Raise AssertionError).

(** mtm2.py lines 159-160, mtm3.py lines 263-267: [r] and [r'] are the random numbers. *)
Definition new_out_means (K : nat) (r : mat) : mat := norm_rows K r.
Definition new_in_means (K : nat) (out r' : mat) : mat := norm_rows K (fun d k => out d k + 1 / 10 * r' d k)%R.

(** ** From latent Dirichlet allocation, mtm3.py lines 221-232 *)
Section lda.
  Variables K D : nat.
  Definition log_mean (theta : mat) : R := (vsum D (fun d => vsum K (fun k => ln (theta d k))) / (INR D * INR K))%R.
  Definition lda_out (theta : mat) : mat := fun d k => (ln (theta d k) - log_mean theta)%R.
  Definition lda_varc (theta : mat) : R := Rabs (1 * log_mean theta / 10).
  Definition lda_in (theta r : mat) : mat := fun d k => (lda_out theta d k + log_mean theta / 10 * r d k)%R.
  Definition lda_topic_mean (theta : mat) : vec := fun k => (vsum D (fun d => lda_out theta d k) / INR D)%R.
End lda.

(** ** The folds of an evaluation with a saved model of latent Dirichlet allocation,
    run/__main__.py lines 988-989 and 1093-1094.  [words] are its words: the sum
    of [samples] samples (lda_gibbs.py lines 270-276, which copies) or the array that
    lda_vb.py lines 345-353 normalises in place and returns. *)
Inductive lda_words :=
| Sampled (samples : nat) (sum : mat)
| Variational (array : mat).
(** lda_vocab, lines 157-163: what the model starts with, and the saved model after that. *)
Definition lda_vocab (T : nat) (l : lda_words) : mat * lda_words :=
  match l with
  | Sampled n s => ((fun k t => s k t / INR n)%R, l)
  | Variational a => let a' := norm_rows T a in (a', Variational a')
  end.
(** Training writes to the array of words it was given (mtm3.py lines 395-397): [train i]
    is what it leaves there in fold i. *)
Definition one_fold (T : nat) (train : nat -> mat -> mat) (i : nat) (l : lda_words) : mat * lda_words :=
  let (v, l') := lda_vocab T l in
  (v, match l' with Sampled n s => l' | Variational _ => Variational (train i v) end).
Fixpoint folds (T : nat) (train : nat -> mat -> mat) (n i : nat) (l : lda_words) : list mat * lda_words :=
  match n with
  | 0 => ([], l)
  | S n => let (v, l) := one_fold T train i l in let (vs, l) := folds T train n (S i) l in (v :: vs, l)
  end.
