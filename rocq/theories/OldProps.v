(** * Properties C278-C282: the side topic model of old/sidetopic.py *)
From Coq Require Import List Reals ZArith Arith Bool Lra Lia.
From Verif Require Import Base RealModel RealProofs VbModel VbProofs LinkModel LinkProps CtmModel CtmProofs CtmProps StmProofs StmProps MtmModel MtmProofs
  MtmProps BouchModel BouchProofs BouchProps VecyProofs UyvModel UyvProofs OldModel OldProofs.
Import ListNotations.
Open Scope nat_scope.

(** What is asked of the sizes, of the variances and of scipy's inverse. *)
Record setting (K F P D : nat) (tiny sigma tau : R) (inv : nat -> mat -> option mat) : Prop := {
  se_K : 0 < K; se_D : 0 < D; se_tiny : (0 < tiny)%R; se_sigma : (0 < sigma)%R; se_tau : (0 < tau)%R;
  se_inv : correct_inv inv; se_P : invertible inv P; se_F : invertible inv F }.
(** Documents: counts of words, and every document has some. *)
Definition worded (T D : nat) (W : mat) : Prop :=
  (forall d t, d < D -> t < T -> (0 <= W d t)%R) /\ (forall d, d < D -> (0 < vsum T (W d))%R).

Section props.
  Variables (K F T P D : nat) (tiny sigma tau : R) (inv : nat -> mat -> option mat) (W X : mat).
  Notation iter := (old_iter K F T P D tiny sigma tau inv W X).
  Notation loop := (fun n => old_loop K F T P D tiny sigma tau inv n W X).

  (** ** C278 *)
  Theorem C278_latent o q o' q' : setting K F P D tiny sigma tau inv -> worded T D W -> iter o q = Ok (o', q') ->
    forall V, (misfit K F P (o_A o) (o_U o) (o_V o') + tau * tau * squares P K (o_V o') <= misfit K F P (o_A o) (o_U o) V + tau * tau * squares P K V)%R.
  Proof.
    intros [HK HD Ht Hs Hta Hi HP HF] [HW HN] E.
    destruct (iter_parts K F T P D tiny sigma tau inv W X HK HD Hs Hta Hi HP HF HW HN o q) as (o1 & q1 & E1 & _ & _ & _ & _ & B & _).
    rewrite E in E1. injection E1 as <- <-. exact B.
  Qed.
  Theorem C278_projection o q o' q' : setting K F P D tiny sigma tau inv -> worded T D W -> iter o q = Ok (o', q') ->
    forall U, (misfit K F P (o_A o') (o_U o') (o_V o') + INR K * (tau * tau) * vsum F (fun f => quad P (o_varV o') (o_U o' f) (o_U o' f))
               <= misfit K F P (o_A o') U (o_V o') + INR K * (tau * tau) * vsum F (fun f => quad P (o_varV o') (U f) (U f)))%R.
  Proof.
    intros [HK HD Ht Hs Hta Hi HP HF] [HW HN] E.
    destruct (iter_parts K F T P D tiny sigma tau inv W X HK HD Hs Hta Hi HP HF HW HN o q) as (o1 & q1 & E1 & _ & _ & _ & _ & _ & _ & B).
    rewrite E in E1. injection E1 as <- <-. exact B.
  Qed.
  (** The cost of a map from features to topics: the distances to the means of the documents
      and to the product of the bases, each over its variance. *)
  Definition map_cost (m A U V : mat) : R :=
    (residual K F D X A m / (sigma * sigma) + misfit K F P A U V / (tau * tau))%R.
  Theorem C278_features o q o' q' : setting K F P D tiny sigma tau inv -> worded T D W -> sigma = tau -> iter o q = Ok (o', q') ->
    forall A, (map_cost (o_lmda q) (o_A o') (o_U o) (o_V o') <= map_cost (o_lmda q) A (o_U o) (o_V o'))%R.
  Proof.
    intros [HK HD Ht Hs Hta Hi HP HF] [HW HN] Est E A.
    destruct (iter_parts K F T P D tiny sigma tau inv W X HK HD Hs Hta Hi HP HF HW HN o q) as (o1 & q1 & E1 & _ & _ & _ & _ & _ & B & _).
    rewrite E in E1. injection E1 as <- <-.
    assert (Eone : (tau * tau / (sigma * sigma) = 1)%R) by (rewrite Est; field; lra).
    assert (Eone' : (sigma * sigma / (tau * tau) = 1)%R) by (rewrite Est; field; lra).
    assert (EE : forall Z, map_cost (o_lmda q) Z (o_U o) (o_V o') = (vsum K (fun k =>
        penalised D F (tau * tau / (sigma * sigma)) 1 X (fun d => sigma * sigma / (tau * tau) * o_lmda q d k) (fun f => vsum P (fun p => o_U o f p * o_V o' p k)) (fun f => Z f k)) / (tau * tau))%R).
    { intros Z. unfold map_cost. replace (sigma * sigma)%R with (tau * tau)%R at 1 by (rewrite Est; reflexivity).
      transitivity ((residual K F D X Z (o_lmda q) + misfit K F P Z (o_U o) (o_V o')) / (tau * tau))%R; [field; lra|]. f_equal. unfold residual, misfit. rewrite (vsum_swap F K), <- vsum_plus.
      apply vsum_ext. intros k _. unfold penalised. rewrite Eone, Eone', !Rmult_1_l. f_equal. apply vsum_ext. intros d _. rewrite Rmult_1_l. reflexivity. }
    rewrite !EE. apply Rmult_le_compat_r; [left; apply Rinv_0_lt_compat, Rmult_lt_0_compat; lra|]. apply vsum_le. intros k _. apply (B (fun f => A f k) k).
  Qed.

  (** ** C279 *)
  (** The words that occur have not become too rare in any topic. *)
  Definition common (v : mat) : Prop := forall k t, k < K -> occurs T D W t -> (tiny <= v k t)%R.
  Notation bd ldetP ldetF := (bound K F T P D sigma tau W X ldetP ldetF).
  Lemma loop_grows ldetP ldetF : setting K F P D tiny sigma tau inv -> worded T D W -> sigma = tau -> log_det P ldetP -> log_det F ldetF ->
    forall n o q m u s xi, sound F P o -> distributions K T (o_vocab o) -> holds K D q m u s xi ->
    (forall i o1 q1, i < n -> loop i o q = Ok (o1, q1) -> common (o_vocab o1)) ->
    exists o' q' m' u' xi', loop n o q = Ok (o', q') /\ holds K D q' m' u' s xi' /\ (bd ldetP ldetF o m u s xi <= bd ldetP ldetF o' m' u' s xi')%R.
  Proof.
    intros [HK HD Ht Hs Hta Hi HP HF] [HW HN] Est LP LF. induction n as [|n IH]; intros o q m u s xi Hso Hv Hq Hc; cbn [old_loop].
    - exists o, q, m, u, xi. split; [reflexivity|]. split; [exact Hq|lra].
    - destruct (iter_grows K F T P D tiny sigma tau inv W X HK HD Ht Hs Hta Hi HP HF HW HN ldetP ldetF o q m u s xi LP LF Hso) as (o1 & q1 & m1 & u1 & x1 & E & H1 & S1 & V1 & _ & G).
      { intros k Hk. destruct (Hv k Hk) as [A1 A2]. split; [exact A1|]. split; [lra|]. intros t Ho. exact (Hc 0 o q ltac:(lia) eq_refl k t Hk Ho). }
      { exact Hq. }
      rewrite E. cbn [bind].
      destruct (IH o1 q1 m1 u1 s x1 S1 V1 H1) as (o' & q' & m' & u' & x' & E' & H' & G').
      { intros i o2 q2 Hi2 E2. apply (Hc (Datatypes.S i) o2 q2 ltac:(lia)). cbn [old_loop]. rewrite E. exact E2. }
      exists o', q', m', u', x'. split; [exact E'|]. split; [exact H'|]. pose proof (G Est). lra.
  Qed.
  Theorem C279_bound ldetP ldetF n o draws : setting K F P D tiny sigma tau inv -> worded T D W -> sigma = tau -> log_det P ldetP -> log_det F ldetF ->
    sound F P o -> distributions K T (o_vocab o) ->
    (forall i o1 q1, i < n -> loop i o (old_start draws) = Ok (o1, q1) -> common (o_vocab o1)) ->
    exists o' q' m' u' xi', loop n o (old_start draws) = Ok (o', q') /\ holds K D q' m' u' (fun _ => 0%R) xi' /\
      (bd ldetP ldetF o draws (fun _ _ => 1) (fun _ => 0) (fun _ _ => 1) <= bd ldetP ldetF o' m' u' (fun _ => 0) xi')%R.
  Proof.
    intros HS HW Est LP LF Hso Hv Hc. apply loop_grows; try assumption.
    intros d _. split; [reflexivity|]. intros k _. cbn [o_lmda o_nu o_lxi old_start]. split; [reflexivity|]. split; [lra|]. split; [lra|]. split; [lra|]. apply neg_jakkola_is. lra.
  Qed.
  (** A new model is a model to start with. *)
  Theorem C279_new V U draws : 0 < T -> (forall k t, k < K -> t < T -> (0 < draws k t)%R) ->
    sound F P (old_new T P V U draws) /\ distributions K T (o_vocab (old_new T P V U draws)).
  Proof.
    clear. intros HT Hd. split.
    - repeat split; try apply (scalar_symm _ 1); apply scalar_posdef; lra.
    - intros k Hk. cbn [o_vocab old_new]. assert (HS : (0 < vsum T (draws k))%R) by (apply vsum_pos; [exact HT|intros; apply Hd; assumption]). split.
      + intros t Hti. apply Rmult_le_pos; [left; apply Hd; assumption|left; apply Rinv_0_lt_compat; exact HS].
      + unfold norm_rows. rewrite (vsum_ext T _ (fun t => draws k t * / vsum T (draws k))%R) by reflexivity. rewrite vsum_scale_r. apply Rinv_r. lra.
  Qed.

  (** ** C280 *)
  Theorem C280_log_refuted logInterval iterations o draws : 0 < logInterval ->
    old_train K F T P D tiny sigma tau inv logInterval iterations W X o draws = Raise TypeError.
  Proof. intros H. unfold old_train. replace (0 <? logInterval) with true by (symmetry; apply Nat.ltb_lt; exact H). reflexivity. Qed.
  Lemma not_empty : worded T D W -> empty T D W = false.
  Proof.
    intros [_ HN]. unfold empty. apply not_true_is_false. intros E. apply existsb_exists in E as [d [Hd E]]. apply in_seq in Hd.
    rewrite (proj2 (rltb_true _ _) (HN d ltac:(lia))) in E. discriminate E.
  Qed.
  Lemma loop_ends : setting K F P D tiny sigma tau inv -> worded T D W -> forall n o q, exists o' q', loop n o q = Ok (o', q') /\ o_s q' = o_s q /\
    (0 < n -> sound F P o' /\ distributions K T (o_vocab o') /\ weights K T D W (o_vocab o')).
  Proof.
    intros [HK HD Ht Hs Hta Hi HP HF] [HW HN]. induction n as [|n IH]; intros o q; cbn [old_loop].
    - exists o, q. split; [reflexivity|]. split; [reflexivity|lia].
    - destruct (iter_parts K F T P D tiny sigma tau inv W X HK HD Hs Hta Hi HP HF HW HN o q) as (o1 & q1 & E & S1 & V1 & W1 & Es & _).
      rewrite E. cbn [bind]. destruct (IH o1 q1) as (o' & q' & E' & Es' & H'). exists o', q'. split; [exact E'|]. split; [congruence|]. intros _.
      destruct n as [|n]; [|apply H'; lia]. cbn [old_loop] in E'. injection E' as <- <-. repeat split; try apply S1; try assumption; try apply V1; try apply W1; assumption.
  Qed.
  Theorem C280_ends iterations o draws : setting K F P D tiny sigma tau inv -> worded T D W ->
    exists o' q', old_train K F T P D tiny sigma tau inv 0 iterations W X o draws = Ok (Some (o', q')) /\
      (0 < iterations -> distributions K T (o_vocab o') /\ forall k t, k < K -> occurs T D W t -> (0 < o_vocab o' k t)%R).
  Proof.
    intros HS HW. destruct (loop_ends HS HW iterations o (old_start draws)) as (o' & q' & E & _ & H). exists o', q'.
    unfold old_train. rewrite (not_empty HW). cbn [Nat.ltb Nat.leb andb]. rewrite E. cbn [bind]. split; [reflexivity|].
    intros Hn. destruct (H Hn) as (_ & V1 & W1). split; [exact V1|]. intros k t Hk Ho. apply (W1 k Hk). exact Ho.
  Qed.
  Theorem C280_empty_refuted iterations o draws d : setting K F P D tiny sigma tau inv -> (forall d t, d < D -> t < T -> (0 <= W d t)%R) ->
    d < D -> (forall t, t < T -> W d t = 0%R) ->
    old_train K F T P D tiny sigma tau inv 0 iterations W X o draws
    = if 2 <? iterations then Raise ValueError else if 0 <? iterations then Ok None else Ok (Some (o, old_start draws)).
  Proof.
    intros [HK HD Ht Hs Hta Hi HP HF] HW Hd Hz.
    assert (E : empty T D W = true).
    { unfold empty. apply existsb_exists. exists d. split; [apply in_seq; lia|]. rewrite (vsum_ext T (W d) (fun _ => 0%R)) by exact Hz. rewrite vsum_zero.
      replace (rltb 0 0) with false by (symmetry; apply rltb_false; lra). reflexivity. }
    unfold old_train. rewrite E. cbn [Nat.ltb Nat.leb andb]. destruct iterations as [|n]; [reflexivity|].
    cbn [Nat.ltb Nat.leb].
    destruct (varV_ok F P tau inv Hta Hi HP (o_U o)) as (N & EV & SN & PN & _). destruct (varA_ok F D sigma tau inv X Hs Hta Hi HF) as (B & EA & _).
    destruct (U_ok K F P tau inv HK Hta Hi HP (old_A F P D B X draws (o_U o) (old_V F P N (o_U o) (o_A o))) (old_V F P N (o_U o) (o_A o)) N SN PN) as (U & EU & _).
    unfold old_iter. rewrite EV. cbn [bind]. rewrite EA. cbn [bind o_lmda old_start]. rewrite EU. reflexivity.
  Qed.

  (** ** C281 *)
  Theorem C281_kept iterations o draws o' q' : setting K F P D tiny sigma tau inv -> worded T D W ->
    old_train K F T P D tiny sigma tau inv 0 iterations W X o draws = Ok (Some (o', q')) -> forall d, o_s q' d = 0%R.
  Proof.
    intros HS HW. destruct (loop_ends HS HW iterations o (old_start draws)) as (o1 & q1 & E & Es & _).
    unfold old_train. rewrite (not_empty HW). cbn [Nat.ltb Nat.leb andb]. rewrite E. cbn [bind]. intros E1 d. injection E1 as <- <-. rewrite Es. reflexivity.
  Qed.

  (** ** C282 *)
  (** The bound of a document, the probabilities of words below [tiny] being taken for it. *)
  Definition doc_bound (vocab A : mat) (d : nat) : R -> vec -> vec -> vec -> R :=
    objective K T (floored tiny vocab) (fun k => vsum F (fun f => X d f * A f k))%R (diag (fun _ => 1 / (sigma * sigma))%R) (W d).
  Theorem C282_documents o q m u s xi o' q' d : setting K F P D tiny sigma tau inv -> worded T D W -> holds K D q m u s xi -> iter o q = Ok (o', q') -> d < D ->
    exists u' xi', (forall k, k < K -> u' k = (o_nu q' d k * o_nu q' d k)%R /\ (0 < u' k)%R /\ (0 < xi' k)%R /\ o_lxi q' d k = jaakkola (xi' k)) /\
    bouch_solves K T (floored tiny (o_vocab o)) (fun k => vsum F (fun f => X d f * o_A o' f k))%R (diag (fun _ => 1 / (sigma * sigma))%R) (W d) (s d) (xi d) (m d) (o_lmda q' d) /\
    (doc_bound (o_vocab o) (o_A o') d (s d) (xi d) (m d) (u d) <= doc_bound (o_vocab o) (o_A o') d (s d) (xi d) (o_lmda q' d) (u d))%R /\
    (forall z, (forall k, k < K -> (0 < z k)%R) -> (doc_bound (o_vocab o) (o_A o') d (s d) (xi d) (o_lmda q' d) z <= doc_bound (o_vocab o) (o_A o') d (s d) (xi d) (o_lmda q' d) u')%R) /\
    (forall x, (forall k, k < K -> (0 < x k)%R) -> (doc_bound (o_vocab o) (o_A o') d (s d) x (o_lmda q' d) u' <= doc_bound (o_vocab o) (o_A o') d (s d) xi' (o_lmda q' d) u')%R).
  Proof.
    intros [HK HD Ht Hs Hta Hi HP HF] [HW HN] Hq E Hd.
    destruct (document_step K F T D tiny sigma W X HK Ht Hs HW HN (o_vocab o) (o_A o') q m u s xi d Hq Hd) as (S1 & S2 & S3 & S4 & S5). cbv zeta in *.
    unfold old_iter in E. destruct (old_varV F P tau inv (o_U o)) as [N|]; [|discriminate E]. cbn [bind] in E.
    destruct (old_varA F D sigma tau inv X) as [B|]; [|discriminate E]. cbn [bind] in E.
    destruct (old_U K P tau inv _ _ N) as [U|]; [|discriminate E]. cbn [bind] in E. injection E as <- <-. cbn [o_A o_nu o_lmda o_lxi] in *.
    eexists _, _. split; [|split; [|split; [exact S3|split; [exact S4|exact S5]]]].
    - intros k Hk. destruct (S1 k Hk) as (P1 & P2 & P3). split; [reflexivity|]. split; [apply Rmult_lt_0_compat; exact P1|]. split; [exact P2|exact P3].
    - intros k Hk. pose proof (S2 k Hk) as Eq. rewrite Eq. do 3 f_equal. apply vsum_ext. intros t _. destruct (Hq d Hd) as [_ Hm]. destruct (Hm k Hk) as (-> & _).
      do 2 f_equal. unfold mass. apply vsum_ext. intros j Hj. destruct (Hm j Hj) as (-> & _). reflexivity.
  Qed.
End props.

(** The bound of a document is better with another offset, unless its means, weighted with the
    curvatures, add up to one number. *)
Theorem C281_offset_refuted K T v mu Pr w xi m u : 0 < K -> (0 < vsum T w)%R -> (forall k, k < K -> (0 < xi k)%R) ->
  vsum K (fun k => jaakkola (xi k) * m k)%R <> (1 / 2 - INR K / 4)%R ->
  exists s, (objective K T v mu Pr w 0 xi m u < objective K T v mu Pr w s xi m u)%R.
Proof.
  intros HK HN Hxi Hne. set (l := fun k => jaakkola (xi k)).
  assert (HL : (0 < vsum K l)%R) by (apply vsum_pos; [exact HK|intros; apply jaakkola_pos, Hxi; assumption]).
  set (s := ((INR K / 4 - 5 / 10 + vsum K (fun k => l k * m k)) / vsum K l)%R). exists s.
  pose proof (offset_square K l m s 0 HL) as O. cbv beta in O.
  replace (1 - INR K / 2 - 2 * vsum K (fun k => l k * m k) + 2 * s * vsum K l)%R with 0%R in O by (unfold s; field; lra).
  unfold objective. rewrite !bouchard_offset.
  assert (Hs : s <> 0%R).
  { unfold s. intros Z. apply Hne. apply Rmult_integral in Z as [Z|Z]; [|exfalso; apply (Rinv_neq_0_compat (vsum K l)); [lra|exact Z]].
    change (vsum K (fun k => jaakkola (xi k) * m k)%R) with (vsum K (fun k => l k * m k)%R). lra. }
  assert (Hq : (0 < (0 - s) * (0 - s))%R) by (replace ((0 - s) * (0 - s))%R with (Rsqr s) by (unfold Rsqr; ring); apply Rsqr_pos_lt; exact Hs).
  pose proof (Rmult_lt_0_compat _ _ HL Hq). change (fun k => jaakkola (xi k)) with l. nra.
Qed.

(** ** A map that is not the best: the two variances are not the same *)
Definition one : mat := fun _ _ => 1%R.
Definition none : mat := fun _ _ => 0%R.
(** The inverse of a number. *)
Definition inv1 (n : nat) (M : mat) : option mat := match n with 1 => if rltb 0 (M 0%nat 0%nat) then Some (fun _ _ => / M 0%nat 0%nat)%R else None | _ => None end.
Lemma inv1_ok : correct_inv inv1 /\ invertible inv1 1.
Proof.
  split.
  - intros [|[|n]] M N E; try discriminate E. cbn [inv1] in E. destruct (rltb 0 (M 0%nat 0%nat)) eqn:Ep; [|discriminate E]. apply rltb_true in Ep. injection E as <-.
    split; intros i j Hi Hj; replace i with 0 by lia; replace j with 0 by lia; cbn; field; lra.
  - intros M _ HP. pose proof (HP (one 0) ltac:(exists 0; split; [lia|unfold one; lra])) as Q. unfold quad, one, vsum in Q. cbn in Q.
    cbn [inv1]. replace (rltb 0 (M 0%nat 0%nat)) with true; [eexists; reflexivity|]. symmetry. apply rltb_true. lra.
Qed.
Lemma ln1 : log_det 1 (fun M => ln (M 0%nat 0%nat)).
Proof.
  intros M N S _ PM HR _ _ PS. pose proof (HR 0 0 ltac:(lia) ltac:(lia)) as E. unfold vsum in E. cbn in E.
  pose proof (PM (one 0) ltac:(exists 0; split; [lia|unfold one; lra])) as Q1. pose proof (PS (one 0) ltac:(exists 0; split; [lia|unfold one; lra])) as Q2.
  unfold quad, one, vsum in Q1, Q2. cbn in Q1, Q2. unfold trace2, vsum. cbn.
  assert (EN : (N 0%nat 0%nat = / M 0%nat 0%nat)%R) by (apply (Rmult_eq_reg_l (M 0%nat 0%nat)); [rewrite Rinv_r by lra; lra|lra]). rewrite EN, ln_Rinv by lra.
  pose proof (ln_le_sub1 (M 0%nat 0%nat * S 0%nat 0%nat)%R ltac:(apply Rmult_lt_0_compat; lra)) as L. rewrite ln_mult in L by lra. rewrite !Rplus_0_r, Rinv_r by lra. lra.
Qed.
Definition o1 : old := {| o_A := none; o_varA := eye; o_V := none; o_varV := eye; o_U := none; o_vocab := one |}.

Theorem C278_features_refuted : exists K F T P D tiny sigma tau inv W X o q o' q' A, setting K F P D tiny sigma tau inv /\ worded T D W /\
  old_iter K F T P D tiny sigma tau inv W X o q = Ok (o', q') /\
  (map_cost K F P D sigma tau X (o_lmda q) A (o_U o) (o_V o') < map_cost K F P D sigma tau X (o_lmda q) (o_A o') (o_U o) (o_V o'))%R.
Proof.
  assert (HS : setting 1 1 1 1 1 1 2 inv1) by (constructor; try lia; try lra; apply inv1_ok).
  assert (HW : worded 1 1 one) by (split; intros; unfold one, vsum; cbn; lra).
  destruct (iter_parts 1 1 1 1 1 1 1 2 inv1 one one ltac:(lia) ltac:(lia) ltac:(lra) ltac:(lra) (proj1 inv1_ok) (proj2 inv1_ok) (proj2 inv1_ok) (proj1 HW) (proj2 HW) o1 (old_start one))
    as (o' & q' & E & _).
  exists 1, 1, 1, 1, 1, 1%R, 1%R, 2%R, inv1, one, one, o1, (old_start one), o', q', (fun _ _ => 4 / 5)%R.
  split; [exact HS|]. split; [exact HW|]. split; [exact E|].
  unfold old_iter, old_varV, old_varA, old_U, la_inv, inv1 in E. cbn [bind] in E.
  assert (R1 : rltb 0 (scalar (2 * 2) 0%nat 0%nat + gram 1 (o_U o1) 0%nat 0%nat)%R = true) by (apply rltb_true; unfold scalar, gram, vsum, o1, none; cbn; lra). rewrite R1 in E. cbn [bind] in E.
  assert (R2 : rltb 0 (2 * 2 / (1 * 1) * gram 1 one 0%nat 0%nat + eye 0%nat 0%nat)%R = true) by (apply rltb_true; unfold gram, vsum, one, eye; cbn; lra). rewrite R2 in E. cbn [bind] in E.
  match type of E with context [rltb 0 ?z] => destruct (rltb 0 z); cbn [bind] in E; [|discriminate E] end.
  injection E as <- <-. unfold map_cost, residual, misfit. cbn [o_A o_V o_U o_lmda old_start o1]. unfold old_A, old_V, gram, vsum, one, none, eye, scalar. cbn. lra.
Qed.

(** ** Cases *)
Example C278_case : exists o' q', old_iter 1 1 1 1 1 (1 / 2) 1 1 inv1 one one o1 (old_start one) = Ok (o', q') /\ setting 1 1 1 1 (1 / 2) 1 1 inv1 /\ worded 1 1 one.
Proof.
  assert (HS : setting 1 1 1 1 (1 / 2) 1 1 inv1) by (constructor; try lia; try lra; apply inv1_ok).
  assert (HW : worded 1 1 one) by (split; intros; unfold one, vsum; cbn; lra).
  destruct (iter_parts 1 1 1 1 1 (1 / 2) 1 1 inv1 one one ltac:(lia) ltac:(lia) ltac:(lra) ltac:(lra) (proj1 inv1_ok) (proj2 inv1_ok) (proj2 inv1_ok) (proj1 HW) (proj2 HW) o1 (old_start one))
    as (o' & q' & E & _). exists o', q'. split; [exact E|]. split; [exact HS|exact HW].
Qed.
(** One topic has one distribution over one word: no word becomes rare. *)
Example C279_case n : exists o' q' m' u' xi', old_loop 1 1 1 1 1 (1 / 2) 1 1 inv1 n one one o1 (old_start one) = Ok (o', q') /\ holds 1 1 q' m' u' (fun _ => 0%R) xi' /\
  (bound 1 1 1 1 1 1 1 one one (fun M => ln (M 0%nat 0%nat)) (fun M => ln (M 0%nat 0%nat)) o1 one (fun _ _ => 1) (fun _ => 0) (fun _ _ => 1)
   <= bound 1 1 1 1 1 1 1 one one (fun M => ln (M 0%nat 0%nat)) (fun M => ln (M 0%nat 0%nat)) o' m' u' (fun _ => 0) xi')%R.
Proof.
  assert (HS : setting 1 1 1 1 (1 / 2) 1 1 inv1) by (constructor; try lia; try lra; apply inv1_ok).
  assert (HW : worded 1 1 one) by (split; intros; unfold one, vsum; cbn; lra).
  assert (HV : distributions 1 1 one) by (intros k _; split; [intros; unfold one; lra|unfold vsum, one; cbn; lra]).
  apply C279_bound; try assumption; try reflexivity; try exact ln1.
  - repeat split; try apply (scalar_symm _ 1); apply scalar_posdef; lra.
  - intros i o2 q2 _ E k t Hk [Ht _]. replace k with 0 by lia. replace t with 0 by lia.
    destruct (loop_ends 1 1 1 1 1 (1 / 2) 1 1 inv1 one one HS HW i o1 (old_start one)) as (o3 & q3 & E3 & _ & H3).
    rewrite E in E3. injection E3 as <- <-. destruct i as [|i].
    + cbn [old_loop] in E. injection E as <- <-. cbn. unfold one. lra.
    + destruct (H3 ltac:(lia)) as (_ & V3 & _). destruct (V3 0 ltac:(lia)) as [_ V4]. unfold vsum in V4. cbn in V4. lra.
Qed.
Example C280_case : old_train 1 1 1 1 1 (1 / 2) 1 1 inv1 0 3 none one o1 one = Raise ValueError /\ old_train 1 1 1 1 1 (1 / 2) 1 1 inv1 0 2 none one o1 one = Ok None.
Proof.
  assert (HS : setting 1 1 1 1 (1 / 2) 1 1 inv1) by (constructor; try lia; try lra; apply inv1_ok).
  split; rewrite (C280_empty_refuted 1 1 1 1 1 (1 / 2) 1 1 inv1 none one _ o1 one 0 HS); try reflexivity; try lia; intros; unfold none; lra.
Qed.
(** The means of one topic at nought. *)
Example C281_case : vsum 1 (fun k => jaakkola 1 * 0)%R <> (1 / 2 - INR 1 / 4)%R.
Proof. unfold vsum. cbn. lra. Qed.

Example C282_case : holds 1 1 (old_start one) one one (fun _ => 0%R) one.
Proof. intros d _. split; [reflexivity|]. intros k _. cbn. unfold one. repeat split; try lra. apply neg_jakkola_is. lra. Qed.

Print Assumptions C278_latent.
Print Assumptions C278_projection.
Print Assumptions C278_features.
Print Assumptions C279_bound.
Print Assumptions C279_new.
Print Assumptions C280_log_refuted.
Print Assumptions C280_ends.
Print Assumptions C280_empty_refuted.
Print Assumptions C281_kept.
Print Assumptions C282_documents.
Print Assumptions C281_offset_refuted.
Print Assumptions C278_features_refuted.
