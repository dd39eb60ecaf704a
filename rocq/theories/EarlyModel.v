(** * Model of modules of /repo/sidetopics/model that run/__main__.py does not import:
    mtm.py (train, query, newQueryState), ctm_bohning_fast.py (train), the log of
    stm_uv_vecy_bohning.py (train) and self_lda_vb_python.py (train, query).

    Numbers are reals without rounding; matrices are functions of their indices with
    their dimensions given beside them.  scipy.linalg.inv is the argument [inv], which
    may raise; digamma is the argument [psi].  ctm_grad_arb.py has the same text as
    ctm_bohning.py, which is modelled in CtmModel.v. *)
From Coq Require Import List String Reals ZArith Arith Bool.
From Verif Require Import Base RealModel UvModel CopyModel VbModel LinkModel CtmModel.
Import ListNotations.
Open Scope nat_scope.
Open Scope list_scope.

(** ** mtm.py *)
Section mtm1.
  Variables K D T Q : nat.
  Variable W : mat.                  (* data.words *)
  Variable L : mat.                  (* data.links: row d has the links from d *)
  Variable n : vec.                  (* docLens *)
  Variable beta : R.                 (* vocabPrior *)
  Variable psi : R -> R.             (* digamma *)
  Variable inv : mat -> res mat.     (* la.inv *)
  Variables U V : mat.               (* D by Q and Q by K; training leaves them *)

  (** The arrays of the query state and of the model, lines 32-40. *)
  Record mst := mkMst
    { m_topics : mat; m_post : mat; m_bydoc : vec; m_bytop : vec; m_exp_bydoc : vec; m_exp_bytop : vec;
      m_lse : vec; m_in : vec; m_words : mat; m_cov : mat }.

  (** Line 138: docLens + links.sum(axis=0). *)
  Definition out_count (d : nat) : R := (n d + vsum D (fun e => L e d))%R.

  (** newQueryState, lines 99-146: [tops] is drawn at random (line 121).  Lines 133 and
      136 take the exponential and back. *)
  Definition new_state (tops words cov : mat) : mst :=
    {| m_topics := tops; m_post := fun _ _ => 0%R;
       m_bydoc := fun d => vsum K (tops d);
       m_bytop := fun k => vsum D (fun d => tops d k);
       m_exp_bydoc := fun d => vsum K (fun k => exp (tops d k));
       m_exp_bytop := fun k => vsum D (fun d => exp (tops d k));
       m_lse := fun k => ln (vsum D (fun d => exp (tops d k)));
       m_in := fun _ => (vsum D (fun d => vsum D (L d)) / INR K)%R;
       m_words := words; m_cov := cov |}.

  (** _infer_word_topics_at_d, lines 336-345: for word t of document d. *)
  Definition word_share (words tops : mat) (d t : nat) : vec :=
    vsoftmax K (fun k => psi (words k t) - psi (vsum T (words k)) + tops d k)%R.
  (** _infer_link_topics_at_d, lines 362-370: for the link from d to l. *)
  Definition link_share (lse : vec) (tops : mat) (d l : nat) : vec :=
    vsoftmax K (fun k => tops l k - lse k + tops d k)%R.

  (** Lines 463-466. *)
  Definition precision (P : mat) (c : vec) (d : nat) : mat := fun i j =>
    (P i j + (if i =? j then n d + out_count d else 0) - 1 / (INR K + 1)
     + (if i =? j then (INR K - 1) / INR K * c i else 0))%R.
  (** U[d, :].dot(V). *)
  Definition prior_mean (d : nat) : vec := fun k => vsum Q (fun q => U d q * V q k)%R.
  (** Lines 475-476. *)
  Definition coef_b (tops : mat) (d : nat) : vec := fun k =>
    (n d * (tops d k - 1 / (INR K + 1) * vsum K (tops d) - vsoftmax K (tops d) k))%R.
  (** Lines 479-480. *)
  Definition coef_f (c maxes etop bytop : vec) (tops : mat) (d : nat) : vec := fun k =>
    (c k * (tops d k - 1 / (INR D + 1) * bytop k - exp (tops d k - maxes k) / etop k))%R.
  (** Lines 470-483; [words] is what it was before this iteration. *)
  Definition right_side (P words : mat) (c maxes etop bytop : vec) (tops : mat) (d : nat) : vec := fun k =>
    (vsum K (fun j => P k j * prior_mean d j)
     + vsum T (fun t => word_share words tops d t k * W d t)
     + coef_b tops d k + coef_f c maxes etop bytop tops d k
     + (INR D - 1) / (2 * INR D + 2) * (c k * (bytop k - tops d k)))%R.

  Definition set_row (m : mat) (d : nat) (v : vec) : mat := fun e k => if e =? d then v k else m e k.
  Definition vplus (a b : vec) : vec := fun k => (a k + b k)%R.
  Definition vmaximum (a b : vec) : vec := fun k => Rmax (a k) (b k).

  (** What changes from document to document, lines 453-502. *)
  Record dst := mkDst
    { d_topics : mat; d_post : mat; d_bytop : vec; d_maxes : vec; d_in : vec; d_newcov : mat; d_words : mat }.

  (** The body of the loop over the documents.  np.squeeze makes the length of a single
      document a number, which cannot be indexed (line 464; before it line 619 of
      var_bound).  Line 497 adds the vector np.diag(S) to every row of newCov. *)
  Definition doc_step (P words : mat) (c maxes etop lse : vec) (d : nat) (s : dst) : res dst :=
    if D =? 1 then Raise IndexError else
    let tops := d_topics s in
    let z := word_share words tops d in
    do post <- inv (precision P c d);
    let r := right_side P words c maxes etop (d_bytop s) tops d in
    let ysum := fun k => vsum D (fun l => link_share lse tops d l k * L d l)%R in
    let new := fun k => vsum K (fun j => post k j * r j)%R in
    let off := fun k => (new k - prior_mean d k)%R in
    Ok {| d_topics := set_row tops d new;
          d_post := set_row (d_post s) d (fun k => post k k);
          d_bytop := fun k => (d_bytop s k - tops d k + new k)%R;
          d_maxes := vmaximum (d_maxes s) new;
          d_in := vplus (d_in s) ysum;
          d_newcov := fun i j => (d_newcov s i j + off i * off j + post j j)%R;
          d_words := fun k t => (d_words s k t + W d t * z t k)%R |}.
  Fixpoint docs (P words : mat) (c maxes etop lse : vec) (ds : list nat) (s : dst) : res dst :=
    match ds with
    | [] => Ok s
    | d :: ds => do s <- doc_step P words c maxes etop lse d s; docs P words c maxes etop lse ds s
    end.

  (** One iteration, lines 440-511; [P] is invCov, [maxes] maxes_bytop.  The arrays
      tsums_bydoc, exp_tsums_bydoc and lse_at_k are not assigned. *)
  Definition tiny_max : R := (1 / 10 ^ 300)%R.
  Definition mtm1_iter (P : mat) (maxes : vec) (s : mst) : res (mat * vec * mst) :=
    do r <- docs P (m_words s) (m_in s) maxes (m_exp_bytop s) (m_lse s) (seq 0 D)
      {| d_topics := m_topics s; d_post := m_post s; d_bytop := m_bytop s; d_maxes := fun _ => tiny_max;
         d_in := fun _ => 0%R; d_newcov := fun _ _ => 0%R; d_words := fun _ _ => beta |};
    do P <- inv (d_newcov r);
    Ok (P, d_maxes r,
        {| m_topics := d_topics r; m_post := d_post r; m_bydoc := m_bydoc s; m_bytop := d_bytop r;
           m_exp_bydoc := m_exp_bydoc s;
           m_exp_bytop := fun k => vsum D (fun d => exp (d_topics r d k - d_maxes r k));
           m_lse := m_lse s; m_in := d_in r; m_words := d_words r; m_cov := d_newcov r |}).

  (** Lines 429-437: [stop] is the decision to stop, for which the bound may raise. *)
  Fixpoint mtm1_loop (stop : nat -> mst -> res bool) (itr todo : nat) (P : mat) (maxes : vec) (s : mst) : res mst :=
    match todo with
    | 0 => Ok s
    | S todo =>
      do b <- stop itr s;
      if b : bool then Ok s else
      do x <- mtm1_iter P maxes s;
      let '(P, maxes, s) := x in
      mtm1_loop stop (S itr) todo P maxes s
    end.

  (** train, lines 374-516, for numbers of 64 bits (line 404).  The maximum of no
      documents is an error (line 427). *)
  Definition mtm1_train (stop : nat -> mst -> res bool) (iterations : nat) (s : mst) : res mst :=
    if existsb (fun d => rltb (n d) 1) (seq 0 D) then Raise ValueError else
    do P <- inv (m_cov s);
    if D =? 0 then Raise ValueError else
    mtm1_loop stop 0 iterations P (fun k => vmax D (fun d => m_topics s d k)) s.

  (** query, lines 524-544: updateVocab is not read; the model that is returned has
      the arrays that training has written. *)
  Definition mtm1_query : (nat -> mst -> res bool) -> nat -> mst -> res mst := mtm1_train.
End mtm1.

(** newModelFromExisting of mtm.py, lines 37-40 and 46-54. *)
Definition mtm1_module : module_ := mkModule
  ["K"; "Q"; "topicPrior"; "vocabPrior"; "wordDists"; "topicCov"; "dtype"; "name"]%string
  [Keep "K"%string; Keep "Q"%string; Copy "topicPrior"%string; Keep "vocabPrior"%string; CopyIf "wordDists"%string "wordDists"%string;
   Keep "topicCov"%string; Keep "dtype"%string; Keep "name"%string].

(** min_link_probs, line 686, and link_probs, line 725: the first thing they do is to
    read model.weights; [rest] is what they would do then. *)
Definition mtm1_predict {A B : Type} (rest : A -> res B) (model : tuple A) : res B :=
  do w <- getattr model "weights"%string; rest w.

(** ** ctm_bohning_fast.py, train *)
Section fast.
  Variables K D T : nat.
  Variable W : mat.
  Variable n : vec.
  Variable beta : R.
  Variable inv : mat -> mat.

  (** Lines 217-289.  Line 284 multiplies a K by K matrix and a D by K one; its rows are
      overwritten by lines 288-289, which are line 281 of ctm_bohning.py. *)
  Definition fast_iter (diagonal : bool) (s : ctm) : res ctm :=
    if negb diagonal && (D <? 2) then Raise ValueError else
    let mu := col_mean D (c_means s) in
    let isigT := inv eye in
    let e := exp_means K (c_means s) in
    let vocab := vocab_update K D T W beta e (c_vocab s) in
    let w := token_weights K T W e vocab in
    if D =? 1 then Raise IndexError else
    let varcs := fun d k => (/ (n d * (INR K - 1) / INR K + eye k k))%R in
    let r := rhs K n (ctm_prior K isigT mu) w (c_means s) in
    do means <- (if diagonal then Ok (fun d k => varcs d k * r d k)%R
                 else if D =? K then Ok (new_means K n inv isigT r)
                 else Raise ValueError);
    Ok {| c_mean := mu; c_sigT := eye; c_vocab := vocab; c_means := means; c_exp := e; c_varcs := varcs |}.
  Fixpoint fast_loop (diagonal : bool) (stop : nat -> ctm -> bool) (itr todo : nat) (s : ctm) : res ctm :=
    match todo with
    | 0 => Ok s
    | S todo =>
      do s <- fast_iter diagonal s;
      if stop itr s then Ok s else fast_loop diagonal stop (S itr) todo s
    end.
  Definition fast_train (diagonal : bool) (stop : nat -> ctm -> bool) (iterations : nat) (s : ctm) : res ctm :=
    fast_loop diagonal stop 0 iterations s.
End fast.

(** ** stm_uv_vecy_bohning.py: the log of train *)
Section log.
  Variable lf : nat.                    (* logFrequency, when it is positive *)
  Variables value like : nat -> R.      (* the bound and the likelihood after iteration itr *)
  Variable perp : R -> R.               (* perplexity_from_like(., docLens.sum()) *)

  (** a[i] = x. *)
  Definition store {A} (i : nat) (x : A) (l : list A) : res (list A) :=
    if i <? List.length l then Ok (firstn i l ++ x :: skipn (S i) l) else Raise IndexError.
  Definition logs : Type := list nat * list R * list R.

  (** Lines 234 and 328-347, nothing but the log.  clamp is misc.py lines 60-71; line 345
      gives the third array to a variable that is not read. *)
  Fixpoint log_loop (itr todo bv : nat) (a : logs) : res logs :=
    match todo with
    | 0 => Ok a
    | S todo =>
      if itr mod lf =? 0 then
        let '(its, vals, likes) := a in
        do vals <- store bv (value itr) vals;
        do likes <- store bv (like itr) likes;
        do its <- store bv itr its;
        if (1 <? bv) && (20 <? itr) && rltb (perp (nth (bv - 1) likes 0%R) - perp (like itr)) 1
        then Ok (firstn bv its, firstn bv vals, likes)
        else log_loop (S itr) todo (S bv) (its, vals, likes)
      else log_loop (S itr) todo bv a
    end.
End log.

(** Lines 194-197, the loop, and line 355: without an iteration sigScale has no value. *)
Definition log_train (value like : nat -> R) (perp : R -> R) (iterations lf : Z) : res logs :=
  if (lf =? 0)%Z then Raise ZeroDivisionError else
  let size := (iterations / lf)%Z in
  if (size <? 0)%Z then Raise ValueError else
  if (iterations <=? 0)%Z then Raise UnboundLocalError else
  log_loop (Z.to_nat lf) value like perp 0 (Z.to_nat iterations) 0
    (repeat 0 (Z.to_nat size), repeat 0%R (Z.to_nat size), repeat 0%R (Z.to_nat size)).

(** ** self_lda_vb_python.py *)
(** The parameters of _update_topics_at_d, line 243, and how many arguments lines 401
    and 423 give it. *)
Definition update_params : list string :=
  ["d"; "data"; "wordCounts"; "linkCounts"; "topicMeans"; "topicPrior"; "diWordDists"; "diWordDistSums"]%string.
Definition update_args : nat := 7.
Definition call {A} (params : list string) (args : nat) (body : res A) : res A :=
  if List.length params =? args then body else Raise TypeError.

Section self.
  Variable D : nat.
  Variables n prior : vec.
  Variable beta : R.
  (** The arrays wordDists and topicDists. *)
  Definition self_arrays : Type := mat * mat.
  Variable update : nat -> self_arrays -> res self_arrays.   (* the body of _update_topics_at_d, and line 402 *)
  Variable measure : nat -> self_arrays -> res (bool * self_arrays). (* lines 406-420: stop?, and the arrays *)

  (** The outcome and the arrays, which are the caller's. *)
  Fixpoint self_docs (ds : list nat) (a : self_arrays) : res unit * self_arrays :=
    match ds with
    | [] => (Ok tt, a)
    | d :: ds => match call update_params update_args (update d a) with
                 | Ok a => self_docs ds a
                 | Raise e => (Raise e, a)
                 end
    end.
  Fixpoint self_loop (updateVocab : bool) (itr todo : nat) (a : self_arrays) : res unit * self_arrays :=
    match todo with
    | 0 => (Ok tt, a)
    | S todo =>
      let a := if updateVocab then ((fun _ _ => beta), snd a) else a in
      match self_docs (seq 0 D) a with
      | (Raise e, a) => (Raise e, a)
      | (Ok _, a) =>
        if updateVocab then
          match measure itr a with
          | Raise e => (Raise e, a)
          | Ok (true, a) => (Ok tt, a)
          | Ok (false, a) => self_loop updateVocab (S itr) todo a
          end
        else self_loop updateVocab (S itr) todo a
      end
    end.
  (** Lines 343-429; query, line 529, is this with updateVocab=False.  Line 188 cannot index
      the length of a single document. *)
  Definition self_train (updateVocab : bool) (iterations : nat) (a : self_arrays) : res unit * self_arrays :=
    if existsb (fun d => rltb (n d) 1) (seq 0 D) then (Raise ValueError, a) else
    if D =? 1 then (Raise IndexError, (fst a, fun d k => (snd a d k - prior k)%R)) else
    match self_loop updateVocab 0 iterations (fst a, params_to_means n (snd a) prior) with
    | (Ok _, a) => (Ok tt, (fst a, means_to_params n (snd a) prior))
    | (Raise e, a) => (Raise e, a)
    end.
End self.
