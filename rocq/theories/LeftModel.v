(** * Model of functions of /repo/sidetopics/model that nothing in run/__main__.py calls:
    newModelAtRandom, newQueryState and log_likelihood of self_lda_vb_python.py, estimate_dirichlet_param of
    stm_uv_vec_y_bohning.py, and log_likelihood and recons_error of old/sidetopic_uyv.py.

    Numbers are reals without rounding; matrices are functions of their indices. *)
From Coq Require Import List String Reals ZArith Arith Bool.
From Verif Require Import Base RealModel VbModel LinkModel CtmModel HyperModel.
Import ListNotations.
Open Scope nat_scope.
Open Scope list_scope.

(** log of a product, or of the least positive number if it is no larger, se_fast.pyx line 524. *)
Definition ln_floor (tiny x : R) : R := if rltb tiny x then ln x else ln tiny.
(** A row over its sum. *)
Definition over_sum (n : nat) (v : vec) : vec := fun k => (v k / vsum n v)%R.
Definition stored_word (W : mat) (d t : nat) : bool := if Req_EM_T (W d t) 0 then false else true.

(** ** self_lda_vb_python.py, lines 133-179
    The weights of the topics have a column after the last topic, which is dropped (lines
    149-150).  The second sum, line 177, takes the words' matrix and the topics of the documents:
    the topics of document t for word t.  Compiled code does not check that there is such a
    document.  Words of floating point; the corpus has links, which are not read. *)
Definition self_likelihood (K D T : nat) (tiny : R) (W links : mat) (topics words : mat) : res R :=
  let tp := fun d => over_sum K (topics d) in
  let wp := fun k => over_sum T (words k) in
  let first := vsum D (fun d => vsum T (fun t => W d t * ln_floor tiny (vsum K (fun k => tp d k * wp k t))))%R in
  if existsb (fun d => existsb (stored_word W d) (seq D (T - D))) (seq 0 D) then Raise MemoryOOB
  else Ok (first + vsum D (fun d => vsum T (fun t => W d t * ln_floor tiny (vsum K (fun k => tp d k * tp t k)))))%R.

(** ** stm_uv_vec_y_bohning.py, lines 386-418 *)
Section dirichlet.
  Variables N K : nat.
  Variables psi psi1 : R -> R.       (* digamma; polygamma(1, .) *)
  (** Line 398. *)
  Definition log_sums (samples : mat) : vec := fun k => vsum N (fun i => ln (samples i k)).
  (** Lines 401-403. *)
  Definition dir_g (p a : vec) : vec := fun k => (- INR N * psi (a k) + INR N * psi (vsum K a) + p k)%R.
  (** Lines 405-406. *)
  Definition dir_q (a : vec) : vec := fun k => (/ (- INR N * psi1 (a k)))%R.
  (** Line 408. *)
  Definition dir_z (a : vec) : R := (INR N * psi1 (vsum K a))%R.
  (** Lines 410-413. *)
  Definition dir_step (p a : vec) : vec :=
    let b := (vsum K (fun k => dir_g p a k * dir_q a k) / (1 / dir_z a + vsum K (dir_q a)))%R in
    fun k => (a k - (dir_g p a k - b) * dir_q a k)%R.
  (** Line 400. *)
  Fixpoint dir_loop (n : nat) (p a : vec) : vec := match n with 0 => a | S n => dir_loop n p (dir_step p a) end.
  Definition dir_estimate (samples : mat) (a : vec) : vec := dir_loop 60 (log_sums samples) a.
End dirichlet.

(** ** old/sidetopic_uyv.py, lines 762-791: the likelihood, and what expLmda is afterwards.
    [F'] and [T'] are the numbers of columns of the features and of the words. *)
Definition uyv_likelihood (K T D F F' T' : nat) (tiny : R) (W e v : mat) : res (R * mat) :=
  if negb (F' =? F) then Raise AssertionError else
  if negb (T' =? T) then Raise AssertionError else
  let sums := fun d => vsum K (e d) in
  let e := fun d k => (e d k / sums d)%R in
  let likely := vsum D (fun d => vsum T (fun t => W d t * ln_floor tiny (vsum K (fun k => e d k * v k t))))%R in
  Ok (likely, fun d k => (e d k * sums d)%R).
(** Lines 756-759, as far as the fields of the query state (lines 68-71) are concerned; [rest] is
    what follows the first line. *)
Section recons.
  Variable value : Type.
  Definition query_fields : list string := ["expLmda"; "nu"; "lxi"; "s"; "docLen"]%string.
  Fixpoint field_of (x : string) (q : list (string * value)) : res value :=
    match q with
    | [] => Raise AttributeError
    | (y, v) :: q => if String.eqb x y then Ok v else field_of x q
    end.
  Definition recons_error (rest : value -> res R) (q : list (string * value)) : res R := do v <- field_of "lmda"%string q; rest v.
End recons.

(** ** self_lda_vb_python.py, newModelAtRandom, lines 54-91: the prior of topics and the words'
    weights.  [ids] are the random numbers of documents; no word is stored twice in a row of [W].
    An array of a prior is changed in place. *)
Inductive self_prior := PriorNone | PriorNumber (x : R) | PriorArray (a : list R).
Definition put_zero (k : nat) (a : list R) : list R := firstn k a ++ 0%R :: skipn (S k) a.
Definition self_new (K D : nat) (W : mat) (ids : nat -> nat) (prior : self_prior) : res (list R * mat) :=
  if K <=? 1 then Raise AssertionError else
  if 255 <=? K then Raise AssertionError else
  do p <- match prior with
          | PriorNone => Ok (repeat (5 / INR K + 1 / 2)%R (S K))
          | PriorNumber _ => Raise TypeError                     (* line 81 *)
          | PriorArray a => Ok a
          end;
  if List.length p <=? K then Raise IndexError else              (* line 81 *)
  if D =? 0 then Raise ValueError else                           (* line 84 *)
  Ok (put_zero K p, fun k t => (1 + W (ids k) t)%R).
(** newQueryState, lines 94-117; [draws] are the rows drawn. *)
Definition self_query (K : nat) (lens : vec) (p : list R) (draws : mat) : res mat :=
  do m <- HyperModel.dirichlet p draws;
  Ok (fun d k => if k =? K then lens d else (m d k * lens d + nth k p 0)%R).
