(** * Model of what the debugging option of the correlated, side-topic and matrix-variate
    models of /repo does to the state of training, and of what var_bound does to the
    arrays that it is given.

    Modelled: the functions _debug_with_bound of sidetopics/model/ctm.py 572-598,
    ctm_bohning.py 459-485, stm_yv.py 502-524, stm_yv_bohning.py 513-534,
    stm_yv_bohning_fake_online.py 539-560, mtm2.py 599-630 and mtm3.py 785-816; the
    statements of the var_bound functions of these modules that write into arrays.
    Arrays are cells of a heap, since the question is which of them are shared.  The
    numbers in the arrays are reals or minus infinity: rounding is not modelled, but
    underflow of np.exp is.  The updates of training between two calls are arbitrary
    functions of the whole state, as are the values of the bounds. *)
From Coq Require Import List Reals Arith Bool.
From Verif Require Import Base RealModel.
Import ListNotations.
Local Open Scope nat_scope.

(** ** Numbers and arrays *)
Inductive num := Fin (r : R) | NInf.
Definition row := list num.
Definition arr := list row.

Definition num_max (a b : num) : num :=
  match a, b with
  | NInf, y => y
  | x, NInf => x
  | Fin x, Fin y => Fin (Rmax x y)
  end.
(** means.max(axis=1) for one row. *)
Definition row_max (r : row) : num := fold_right num_max NInf r.
Definition num_add (a b : num) : num :=
  match a, b with Fin x, Fin y => Fin (x + y)%R | _, _ => NInf end.
(** Difference with a finite row maximum; a row of minus infinities is left (numpy: NaN). *)
Definition num_sub (a b : num) : num :=
  match a, b with Fin x, Fin y => Fin (x - y)%R | _, _ => NInf end.
(** np.exp, which is zero below [- T] ([T] is about 745.13 for double and 103.97 for
    single precision). *)
Definition num_exp (T : R) (a : num) : num :=
  match a with
  | NInf => Fin 0
  | Fin x => if rltb x (- T)%R then Fin 0 else Fin (exp x)
  end.
Definition num_log (a : num) : num :=
  match a with
  | Fin x => if rltb 0 x then Fin (ln x) else NInf
  | NInf => NInf
  end.

(** [np.exp(means - means.max(axis=1)[:,np.newaxis])] *)
Definition exp_shift (T : R) (m : arr) : arr :=
  map (fun r => map (fun x => num_exp T (num_sub x (row_max r))) r) m.
(** stm_yv.py lines 484-486 and 496-497: exponentials in place, then logarithms, then
    the maxima are added again. *)
Definition exp_log (T : R) (m : arr) : arr :=
  map (fun r => map (fun x => num_add (num_log (num_exp T (num_sub x (row_max r)))) (row_max r)) r) m.

(** ** The heap *)
Definition heap := list arr.
Definition load (h : heap) (a : nat) : arr := nth a h [].
Fixpoint store (h : heap) (a : nat) (v : arr) : heap :=
  match h, a with
  | [], _ => []
  | _ :: t, 0 => v :: t
  | x :: t, S a => x :: store t a v
  end.

(** The local names of train and query: where means and expMeans are in the heap. *)
Record state := mkState { mem : heap; means_at : nat; exp_at : nat }.

(** The modules. *)
Inductive modul := Ctm | CtmBohning | StmYv | StmYvBohning | FakeOnline | Mtm2 | Mtm3.

(** Values of bounds: numbers of numpy. *)
Inductive bnd := BFin (r : R) | BPos | BNeg | BNan.
Definition bnd_sub (a b : bnd) : bnd :=
  match a, b with
  | BFin x, BFin y => BFin (x - y)%R
  | BNan, _ | _, BNan | BPos, BPos | BNeg, BNeg => BNan
  | BPos, _ | _, BNeg => BPos
  | BNeg, _ | _, BPos => BNeg
  end.
(** [int(x)], of which only the sign is used. *)
Definition int_of (b : bnd) : res unit :=
  match b with BFin _ => Ok tt | BNan => Raise ValueError | _ => Raise OtherError (* OverflowError *) end.
Definition is_zero (b : bnd) : bool :=
  match b with BFin r => if Req_EM_T r 0 then true else false | _ => false end.

Section Bounds.
  Context (T : R).                        (* where np.exp underflows *)
  Context (value : modul -> heap -> bnd). (* the value of the bound given the arrays that it reads *)

  (** The arrays after [var_bound] of a query state with means at [m] and expMeans at [e]:
      ctm.py line 446, ctm_bohning.py 436, stm_yv_bohning.py 492 (out=expMeans);
      stm_yv.py 484-497; stm_yv_bohning_fake_online.py 456-532, mtm2.py 434-511 and
      mtm3.py 604-676 write into no array. *)
  Definition var_bound_mem (mo : modul) (h : heap) (m e : nat) : heap :=
    match mo with
    | Ctm | CtmBohning | StmYvBohning => store h e (exp_shift T (load h m))
    | StmYv => store h m (exp_log T (load h m))
    | FakeOnline | Mtm2 | Mtm3 => h
    end.

  (** The value: expMeans is read only after it was written (lines as above); the other
      modules read only what was there before.  fake_online returns 0 (line 532). *)
  Definition var_bound_value (mo : modul) (h : heap) (m e : nat) : bnd :=
    match mo with
    | Ctm | CtmBohning | StmYvBohning => value mo (var_bound_mem mo h m e)
    | FakeOnline => BFin 0
    | StmYv | Mtm2 | Mtm3 => value mo h
    end.

  (** What is passed for the corpus: the word matrix (wrapped into a DataSet by the
      modules but mtm2 and mtm3) or the DataSet. *)
  Inductive corpus := Words | Data.
  (** [data.words] in var_bound. *)
  Definition attr_words (c : corpus) : res unit :=
    match c with Data => Ok tt | Words => Raise AttributeError end.

  (** A line printed by debugging: the bound, and the difference shown, if any. *)
  Definition line : Type := bnd * option bnd.

  (** [_debug_with_bound] of a module, with the bound [old] of the call before. *)
  Definition debug_call (mo : modul) (c : corpus) (s : state) (old : bnd) : res (state * bnd * line) :=
    let finish h b :=
      let shown := if is_zero old then None else Some (bnd_sub b old) in
      Ok (mkState (firstn (length (mem s)) h) (means_at s) (exp_at s), b, (b, shown)) in
    match mo with
    | StmYv => Raise TypeError (* line 512: five values for the six fields of QueryState *)
    | Ctm =>                   (* 587-597: means.copy() is a new array; [last] is old *)
        let h1 := mem s ++ [load (mem s) (means_at s)] in
        let e := length (mem s) in
        finish (var_bound_mem mo h1 (means_at s) e) (var_bound_value mo h1 (means_at s) e)
    | CtmBohning | StmYvBohning | FakeOnline =>
        let h1 := mem s ++ [load (mem s) (means_at s)] in
        let e := length (mem s) in
        let b := var_bound_value mo h1 (means_at s) e in
        match b with
        | BNan => finish (var_bound_mem mo h1 (means_at s) e) b
        | _ => do _ <- int_of (bnd_sub b old); finish (var_bound_mem mo h1 (means_at s) e) b
        end
    | Mtm2 | Mtm3 =>
        do _ <- attr_words c;
        let b := var_bound_value mo (mem s) (means_at s) (exp_at s) in
        match b with
        | BNan => finish (var_bound_mem mo (mem s) (means_at s) (exp_at s)) b
        | _ => do _ <- int_of (bnd_sub b old); finish (var_bound_mem mo (mem s) (means_at s) (exp_at s)) b
        end
    end.

  (** [debugFn = _debug_with_bound if debug else _debug_with_nothing] *)
  Definition debug_fn (debug : bool) (mo : modul) (c : corpus) (s : state) (old : bnd) (out : list line)
    : res (state * bnd * list line) :=
    if debug
    then do (s', b, l) <- debug_call mo c s old; Ok (s', b, out ++ [l])
    else Ok (s, old, out).

  (** Training or a query: updates, after each of which debugFn is called. *)
  Fixpoint run (debug : bool) (mo : modul) (c : corpus) (steps : list (state -> res state))
      (s : state) (old : bnd) (out : list line) : res (state * bnd * list line) :=
    match steps with
    | [] => Ok (s, old, out)
    | f :: fs =>
        do s1 <- f s;
        do (s2, old2, out2) <- debug_fn debug mo c s1 old out;
        run debug mo c fs s2 old2 out2
    end.

  (** What the modules pass: ctm.py 214-283 and 358-372, ctm_bohning.py 224-285 and 339-358,
      stm_yv.py 243-290 and 375, stm_yv_bohning.py 254-288 and 390-405, fake_online 262-341 and
      414-429 pass W; mtm2.py 235-319 and mtm3.py 344-452 pass data when training, and
      mtm2.py 378 and 395 W when querying.  mtm3.query does not call debugFn. *)
  Definition train_corpus (mo : modul) : corpus := match mo with Mtm2 | Mtm3 => Data | _ => Words end.
  Definition query_corpus (mo : modul) : corpus := match mo with Mtm3 => Data | _ => Words end.

  (** train and query start a comparison of bounds anew in stm_yv.py (lines 199, 356),
      stm_yv_bohning.py (197, 376) and stm_yv_bohning_fake_online.py (203, 400). *)
  Definition first_old (mo : modul) (before : bnd) : bnd :=
    match mo with StmYv | StmYvBohning | FakeOnline => BFin 0 | _ => before end.

  Definition train (debug : bool) (mo : modul) (steps : list (state -> res state)) (s : state) (before : bnd) :=
    run debug mo (train_corpus mo) steps s (first_old mo before) [].
  Definition query (debug : bool) (mo : modul) (steps : list (state -> res state)) (s : state) (before : bnd) :=
    run debug mo (query_corpus mo) steps s (first_old mo before) [].
End Bounds.
