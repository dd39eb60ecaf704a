(** * Model of var_bound of /repo/sidetopics/model/mtm.py, lines 547-654

    For two or more documents: the lengths of a single one are a number, which cannot be
    indexed (line 619).  Numbers are reals without rounding; la.det and digamma are
    arguments.  A link is stored if its weight is not zero. *)
From Coq Require Import List Reals ZArith Arith Bool.
From Verif Require Import Base RealModel VbModel LinkModel CtmModel EarlyModel.
Import ListNotations.
Open Scope nat_scope.

Section mtmbound.
  Variables K D T Q : nat.
  Variables W L : mat.               (* data.words, data.links *)
  Variable n : vec.                  (* docLens *)
  Variable psi : R -> R.             (* digamma *)
  Variable det : mat -> R.           (* la.det *)
  Variables U V : mat.
  Variables tiny huge vague : R.     (* 1E-300, 1E300 and Vagueness *)

  (** safe_log, overflow_safe.py lines 184-205, one element, with a fresh output. *)
  Definition mb_log (x : R) : R := if rltb x tiny then ln tiny else ln x.
  (** lse, lines 649-654. *)
  Definition mb_lse (v : vec) : R := let s := vsum K (fun k => exp (v k)) in if rltb tiny s then ln s else (- huge)%R.
  Definition stored (d l : nat) : R := if Req_EM_T (L d l) 0 then 0%R else 1%R.

  (** Lines 615-625, document d. *)
  Definition mb_words (s : mst) (d : nat) : R :=
    let z := word_share K T psi (m_words s) (m_topics s) d in
    let e := fun k t => (psi (m_words s k t) - psi (vsum T (m_words s k)))%R in
    (vsum T (fun t => vsum K (fun k => m_topics s d k * (z t k * W d t))) - n d * mb_lse (m_topics s d)
     + vsum T (fun t => vsum K (fun k => W d t * z t k * e k t))
     - vsum T (fun t => vsum K (fun k => z t k * mb_log (z t k)) * W d t))%R.
  (** Lines 628-640, document d: y.dot(topics[linkIdx, :].T), line 639, has a row and a column
      for each link. *)
  Definition mb_links (s : mst) (d : nat) : R :=
    let y := link_share K (m_lse s) (m_topics s) d in
    (- vsum D (fun l => L d l * vsum K (fun k => y l k * mb_log (y l k)))
     + vsum D (fun l => vsum K (fun k => y l k * L d l * m_topics s d k)) - out_count D L n d * mb_lse (m_topics s d)
     + vsum D (fun l => vsum D (fun m => stored d m * vsum K (fun k => y l k * L d l * m_topics s m k)))
     - vsum D (fun l => vsum K (fun k => y l k * L d l * m_lse s k)))%R.
  (** Lines 588-602. *)
  Definition mb_topics (s : mst) : R :=
    let half := (5 / 10 * INR D * INR K)%R in
    let ld := ln (det (m_cov s)) in
    (- half * ln (2 * PI) - half * ln vague - INR D * (5 / 10) * ld
     - vsum D (fun d => vsum K (fun k => vsum K (fun j => (m_topics s d j - prior_mean Q U V d j) * (m_topics s d j - prior_mean Q U V d j) * m_cov s j k) / (2 * vague)))
     - vsum D (fun d => vsum K (fun k => m_post s d k))
     - half * ln (2 * PI * exp 1) - half * ln vague - INR D * (5 / 10) * ld)%R.
  Definition mtm1_bound (s : mst) : R := (mb_topics s + vsum D (mb_words s) + vsum D (mb_links s))%R.
End mtmbound.
