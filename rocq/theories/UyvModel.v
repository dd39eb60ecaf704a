(** * Model of /repo/sidetopics/model/old/sidetopic_uyv.py: newInferencePlan (lines 83-106),
    train (163-374), query (377-452), newVbQueryState (800-831) and newVbModelState (834-887).

    Numbers are reals without rounding.  The draws, scipy's inverse, solver, solver of
    Sylvester's equations and pseudo-inverse, and the bound that is measured are arguments;
    an inverse that does not exist is None.  Debugging output, which computes the bound and
    puts the arrays back, is left out. *)
From Coq Require Import List Reals ZArith Arith Bool.
From Verif Require Import Base RealModel VbModel LinkModel CtmModel BouchModel.
Import ListNotations.
Open Scope nat_scope.

(** Lines 64-66 and 83-106; the optimisations' flag and the file are optional. *)
Record old_plan := { p_iterations : nat; p_epsilon : R; p_logs : nat; p_plot : bool; p_fast : bool }.
Definition new_plan (iterations : nat) (epsilon : R) : old_plan :=
  {| p_iterations := iterations; p_epsilon := epsilon; p_logs := 0; p_plot := true; p_fast := false |}.

Definition ceil (x : R) : Z := (- Int_part (- x))%Z.

Section uyv.
  Variables K Q F P T D : nat.
  Variables sigmaSq alphaSq kappaSq tauSq : R.
  Variable inv : nat -> mat -> option mat.                      (* la.inv *)
  Variable pinv : mat -> mat.                                   (* la.pinvh *)
  Variable sylvester : mat -> mat -> mat -> mat.                (* la.solve_sylvester *)
  Variable solve : mat -> vec -> vec.                           (* la.solve *)

  Record uyv := { u_A : mat; u_omA : mat; u_Y : mat; u_omY : mat; u_sigY : mat; u_U : mat; u_V : mat; u_vocab : mat }.
  Record uyv_query := { u_exp : mat; u_nu : mat; u_lxi : mat; u_s : vec }.

  (** Lines 218-221 and 826-831: draws are between 0 and 1. *)
  Definition new_query (draws : mat) : uyv_query :=
    {| u_exp := fun d k => exp (draws d k); u_nu := fun _ _ => 1%R; u_lxi := fun _ _ => neg_jakkola 1; u_s := fun _ => 0%R |}.
  (** Lines 868-887; sys.float_info.epsilon is [eps]. *)
  Definition new_model (eps : R) (U Y V draws : mat) : res uyv :=
    if rltb 1 (alphaSq * sigmaSq / (tauSq * kappaSq)) then Raise ValueError
    else Ok {| u_A := fun k f => vsum Q (fun q => vsum P (fun p => U k q * Y q p * V f p))%R;
               u_omA := fun f g => if f =? g then alphaSq else 0%R; u_Y := Y;
               u_omY := fun p p' => if p =? p' then tauSq else 0%R; u_sigY := fun q q' => if q =? q' then kappaSq else 0%R;
               u_U := U; u_V := V; u_vocab := fun k t => (norm_rows T draws k t + eps)%R |}.

  Definition la_inv (m : nat) (M : mat) : res mat := match inv m M with Some N => Ok N | None => Raise LinAlgError end.
  Definition scalar (c : R) : mat := fun i j => if i =? j then c else 0%R.
  Definition gram (m : nat) (M : mat) : mat := fun i j => vsum m (fun k => M k i * M k j)%R.
  (** U.T.dot(A).dot(V) and U.dot(Y).dot(V.T). *)
  Definition inner (U A V : mat) : mat := fun q p => vsum K (fun k => vsum F (fun f => U k q * A k f * V f p))%R.
  Definition outer (U Y V : mat) : mat := fun k f => vsum Q (fun q => vsum P (fun p => U k q * Y q p * V f p))%R.
  Definition ratio : R := (alphaSq * sigmaSq / (tauSq * kappaSq))%R.

  (** Lines 260-277.  vec lists the columns one after the other (lines 890-891). *)
  Definition new_Y (fast : bool) (U V A : mat) : mat :=
    let VTV := gram F V in
    let UTU := gram K U in
    let by_inverse N := sylvester (fun i j => ratio * N i j)%R VTV (fun q p => vsum Q (fun r => N q r * inner U A V r p))%R in
    match inv Q UTU with
    | Some N => by_inverse N
    | None => if fast then by_inverse (pinv UTU)
              else let y := solve (fun i j => scalar ratio i j + VTV (Nat.div i Q) (Nat.div j Q) * UTU (Nat.modulo i Q) (Nat.modulo j Q))%R
                                  (fun i => inner U A V (i mod Q) (i / Q)) in
                   fun q p => y (p * Q + q)
    end.
  (** Lines 227 and 236-237. *)
  Definition gram_inverse (X : mat) : res mat := la_inv F (fun f g => scalar (1 / alphaSq) f g + gram D X f g)%R.
  (** Line 290; [lmda] is the logarithm of expLmda. *)
  Definition new_A (omA X lmda U Y V : mat) : mat := fun k f =>
    vsum F (fun g => omA f g * (vsum D (fun d => X d g * lmda d k) + 1 / alphaSq * outer U Y V k g))%R.
  (** Lines 316-319. *)
  Definition new_vocab (W e v : mat) : mat := norm_rows T (fun k t => v k t * vsum D (fun d => quotient K W e v d t * e d k))%R.
  (** Lines 330 and 335. *)
  Definition new_U (A V Y omY sigY : mat) : res mat :=
    let B := fun q f => vsum P (fun p => Y q p * V f p)%R in
    let c := vsum P (fun p => vsum P (fun p' => omY p p' * gram F V p' p))%R in
    do N <- la_inv Q (fun q r => vsum F (fun f => B q f * B r f) + c * sigY q r)%R;
    Ok (fun k q => vsum Q (fun r => vsum F (fun f => A k f * B r f) * N r q))%R.
  Definition new_V (A U Y omY sigY : mat) : res mat :=
    let B := fun p k => vsum Q (fun q => U k q * Y q p)%R in
    let c := vsum Q (fun q => vsum Q (fun q' => sigY q q' * gram K U q' q))%R in
    do N <- la_inv P (fun p r => vsum K (fun k => B p k * B r k) + c * omY p r)%R;
    Ok (fun f p => vsum P (fun r => vsum K (fun k => A k f * B r k) * N r p))%R.

  (** One iteration, lines 260-335.  np.log and np.exp write into expLmda, lines 289 and 292. *)
  Definition uyv_iter (fast : bool) (W X : mat) (s : uyv) (e : mat) : res (uyv * mat) :=
    let VTV := gram F (u_V s) in
    let UTU := gram K (u_U s) in
    do sigY <- la_inv Q (fun i j => scalar (1 / tauSq * (1 / kappaSq)) i j + 1 / alphaSq * (1 / sigmaSq) * UTU i j)%R;
    do omY <- la_inv P (fun i j => scalar (1 / tauSq * (1 / kappaSq)) i j + 1 / alphaSq * (1 / sigmaSq) * VTV i j)%R;
    let Y := new_Y fast (u_U s) (u_V s) (u_A s) in
    let lmda := fun d k => ln (e d k) in
    let A := new_A (u_omA s) X lmda (u_U s) Y (u_V s) in
    let e := fun d k => exp (lmda d k) in
    let vocab := new_vocab W e (u_vocab s) in
    do U <- new_U A (u_V s) Y omY sigY;
    do V <- new_V A U Y omY sigY;
    Ok ({| u_A := A; u_omA := u_omA s; u_Y := Y; u_omY := omY; u_sigY := sigY; u_U := U; u_V := V; u_vocab := vocab |}, e).

  (** Lines 245-366: [elbo] is the bound measured, [seen] the iterations it was measured at,
      the last one first. *)
  Fixpoint uyv_loop (plan : old_plan) (step : R) (elbo : nat -> uyv -> res R) (W X : mat) (iteration todo : nat) (logIter : Z) (last : R)
           (seen : list nat) (s : uyv) (e : mat) : res (uyv * mat * list nat) :=
    match todo with
    | 0 => Ok (s, e, seen)
    | S todo =>
      do (s, e) <- uyv_iter (p_fast plan) W X s e;
      if (Z.of_nat iteration =? logIter)%Z then
        do b <- elbo iteration s;
        let logIter := Z.min (ceil (IZR logIter * step)) (Z.of_nat (p_iterations plan) - 1) in
        if negb (rltb b last) && rltb (Rabs (b - last)) (p_epsilon plan) then Ok (s, e, iteration :: seen)
        else uyv_loop plan step elbo W X (S iteration) todo logIter b (iteration :: seen) s e
      else uyv_loop plan step elbo W X (S iteration) todo logIter last seen s e
    end.

  (** Lines 184-242 and 370-374.  The length of a single document is no array; a matrix has no method
      todense; without logs there is nothing to plot, and plt is not imported. *)
  Definition uyv_train (plan : old_plan) (sparse : bool) (elbo : nat -> uyv -> res R) (lowest : R) (draws W X : mat) (s : uyv)
    : res (uyv * uyv_query * list nat) :=
    if D =? 1 then Raise TypeError else
    if negb sparse then Raise AttributeError else
    do omA <- gram_inverse X;
    let step := Rpower (INR (p_iterations plan)) (1 / INR (p_logs plan)) in
    let logIter := if 0 <? p_logs plan then 1%Z else (Z.of_nat (p_iterations plan) + 1)%Z in
    let q := new_query draws in
    do (s, e, seen) <- uyv_loop plan step elbo W X 0 (p_iterations plan) logIter lowest []
      {| u_A := u_A s; u_omA := omA; u_Y := u_Y s; u_omY := u_omY s; u_sigY := u_sigY s; u_U := u_U s; u_V := u_V s; u_vocab := u_vocab s |} (u_exp q);
    if p_plot plan then (if 0 <? p_logs plan then Raise NameError else Raise UnboundLocalError)
    else Ok (s, {| u_exp := e; u_nu := u_nu q; u_lxi := u_lxi q; u_s := u_s q |}, rev seen).

  (** ** query, lines 419-452, for one document with the words [w]; its row of expLmda is
      not a number if it is empty.  Rows do not depend on each other. *)
  Record uyv_doc := { r_exp : vec; r_nu : vec; r_lxi : vec; r_s : R }.
  Definition query_iter (n : Z) (w : vec) (v : mat) (xa : vec) (r : uyv_doc) : option uyv_doc :=
    if (n =? 0)%Z then None else
    let N := IZR n in
    let share := fun k => (r_exp r k * vsum T (fun t => w t / vsum K (fun j => r_exp r j * v j t) * v k t))%R in
    let rho := fun k => (2 * r_s r * r_lxi r k - 5 / 10 + share k / N)%R in
    let lmda := fun k => ((N * rho k + 1 / sigmaSq * xa k) / (N * 2 * r_lxi r k + 1 / sigmaSq))%R in
    let lxi := fun k => neg_jakkola (derive_xi (lmda k) (r_nu r k) (r_s r)) in
    let s := ((INR K / 4 - 5 / 10 + vsum K (fun k => lxi k * lmda k)) / vsum K lxi)%R in
    let nu := fun k => (1 / sqrt (2 * N * lxi k + 1 / sigmaSq))%R in
    Some {| r_exp := fun k => exp (lmda k); r_nu := nu; r_lxi := lxi; r_s := s |}.
  Fixpoint query_loop (iterations : nat) (n : Z) (w : vec) (v : mat) (xa : vec) (r : uyv_doc) : option uyv_doc :=
    match iterations with
    | 0 => Some r
    | S iterations => match query_iter n w v xa r with Some r => query_loop iterations n w v xa r | None => None end
    end.
  (** newVbQueryState for that document. *)
  Definition new_doc (draws : vec) : uyv_doc :=
    {| r_exp := fun k => exp (draws k); r_nu := fun _ => 1%R; r_lxi := fun _ => neg_jakkola 1; r_s := 0%R |}.
End uyv.
