(** * Proofs about the loop that learns offsets. *)
From Coq Require Import List ZArith Reals Arith Bool Lia Lra Permutation.
From Verif Require Import Base RealModel VbModel RealProofs VbProofs BoundProofs StmProofs OffModel OffSpec OffProofs.
Import ListNotations.
Open Scope nat_scope.

Section Rows.
  Context {A : Type} (f : nat -> res A) (dflt : A).
  Lemma mapM_rows n (Q0 : nat -> A -> Prop) : (forall p, p < n -> exists o, f p = Ok o /\ Q0 p o) ->
    exists rows, mapM f (seq 0 n) = Ok rows /\ forall p, p < n -> Q0 p (nth p rows dflt).
  Proof.
    intros H.
    assert (G : forall m st, st + m <= n ->
      exists rows, mapM f (seq st m) = Ok rows /\ forall p, p < m -> Q0 (st + p) (nth p rows dflt)).
    { induction m as [|m IH]; intros st L; cbn [seq].
      - exists []. split; [reflexivity|]. intros p Hp. lia.
      - destruct (H st ltac:(lia)) as [o [E X]]. destruct (IH (S st) ltac:(lia)) as [rows [E' X']].
        exists (o :: rows). cbn [mapM]. rewrite E. cbn [bind]. rewrite E'. split; [reflexivity|].
        intros [|p] Hp; cbn [nth]; [rewrite Nat.add_0_r; exact X|].
        replace (st + S p) with (S st + p) by lia. apply X'. lia. }
    destruct (G n 0 ltac:(lia)) as [rows [E X]]. exists rows. split; [exact E|exact X].
  Qed.
End Rows.

Section Loop.
  Context (inv : nat -> mat -> res mat) (K D : nat) (links : list (list nat)) (w0 w1 lam : R) (tops : mat).
  Notation linked := (has_link links).
  Notation loop := (lro_loop inv K D links w0 w1 lam tops).

  Lemma lro_unfold n eps s offs :
    loop (S n) eps s offs
    = (if D =? 0 then Raise ZeroDivisionError else
       do before <- norm_over K D offs s;
       if Req_EM_T (vsum D (scale_lhs K D links w0 w1 tops offs)) 0 then Raise ValueError else
       do offs' <- new_offsets inv K D links w0 w1 lam tops (vsum D (scale_rhs K D links w1 tops offs) / vsum D (scale_lhs K D links w0 w1 tops offs))%R;
       do after <- norm_over K D offs' (vsum D (scale_rhs K D links w1 tops offs) / vsum D (scale_lhs K D links w0 w1 tops offs))%R;
       if Rlt_dec (Rabs (before - after)) eps
       then Ok ((vsum D (scale_rhs K D links w1 tops offs) / vsum D (scale_lhs K D links w0 w1 tops offs))%R, offs')
       else loop n eps (vsum D (scale_rhs K D links w1 tops offs) / vsum D (scale_lhs K D links w0 w1 tops offs))%R offs').
  Proof. reflexivity. Qed.

  (** The scale that comes out is best for the offsets of some iteration before. *)
  Lemma loop_best (NS : no_self_links D links) (P0 : (0 <= w0)%R) (P1 : (0 <= w1)%R) n eps s0 offs0 s offs :
    loop (S n) eps s0 offs0 = Ok (s, offs) ->
    exists m s1 offs1, m <= n /\ loop m 0%R s0 offs0 = Ok (s1, offs1) /\ best_scale w0 w1 K D linked tops offs1 s
      /\ new_offsets inv K D links w0 w1 lam tops s = Ok offs.
  Proof.
    revert s0 offs0. induction n as [|n IH]; intros s0 offs0 H.
    - exists 0, s0, offs0. split; [lia|]. split; [reflexivity|]. revert H.
      rewrite lro_unfold. destruct (D =? 0); [discriminate|].
      destruct (norm_over K D offs0 s0) as [b|]; [|discriminate]. cbn [bind].
      destruct (Req_EM_T _ 0) as [|NZ]; [discriminate|].
      rewrite lhs_is in NZ |- * by exact NS. rewrite rhs_is.
      destruct (new_offsets _ _ _ _ _ _ _ _ _) as [o|] eqn:E; [|discriminate]. cbn [bind].
      destruct (norm_over _ _ _ _) as [a|]; [|discriminate]. cbn [bind].
      intros H. assert (X : (side_r K D links w1 tops offs0 / side_l K D links w0 w1 tops offs0)%R = s /\ o = offs).
      { destruct (Rlt_dec _ _); inversion H; auto. }
      destruct X as [X1 X2]. subst s o. split; [|exact E].
      intros s' NE. rewrite (misfit_best K D links w0 w1 tops s' offs0 NZ).
      assert (0 <= side_l K D links w0 w1 tops offs0)%R by (apply side_l_nonneg; assumption).
      assert (0 < side_l K D links w0 w1 tops offs0 * (s' - side_r K D links w1 tops offs0 / side_l K D links w0 w1 tops offs0) ^ 2)%R.
      { apply Rmult_lt_0_compat; [lra|]. assert (s' - side_r K D links w1 tops offs0 / side_l K D links w0 w1 tops offs0 <> 0)%R by lra.
        assert (Y := pow_nonzero _ 2 H1). assert (Z := pow2_ge_0 (s' - side_r K D links w1 tops offs0 / side_l K D links w0 w1 tops offs0)). lra. }
      lra.
    - revert H. rewrite lro_unfold.
      destruct (D =? 0) eqn:ED; [discriminate|].
      destruct (norm_over K D offs0 s0) as [b|] eqn:EB; [|discriminate]. cbn [bind].
      destruct (Req_EM_T _ 0) as [|NZ] eqn:EZ; [discriminate|].
      destruct (new_offsets inv K D links w0 w1 lam tops (vsum D (scale_rhs K D links w1 tops offs0) / vsum D (scale_lhs K D links w0 w1 tops offs0))%R) as [o|] eqn:E; [|discriminate]. cbn [bind].
      destruct (norm_over K D o _) as [a|] eqn:EA; [|discriminate]. cbn [bind].
      destruct (Rlt_dec _ _) as [LT|GE].
      + intros H. inversion H. subst s o.
        destruct (IH s0 offs0) as [m [s1 [offs1 [L X]]]]; [|exists m, s1, offs1; split; [lia|exact X]].
        rewrite lro_unfold, ED, EB. cbn [bind]. rewrite EZ, E. cbn [bind]. rewrite EA. cbn [bind].
        destruct (Rlt_dec _ _); [|contradiction]. reflexivity.
      + intros H. destruct (IH _ _ H) as [m [s1 [offs1 [L [X Y]]]]].
        exists (S m), s1, offs1. split; [lia|]. split; [|exact Y].
        rewrite lro_unfold, ED, EB. cbn [bind]. rewrite EZ, E. cbn [bind]. rewrite EA. cbn [bind].
        destruct (Rlt_dec _ _) as [LT'|_]; [|exact X]. exfalso.
        assert (Z := Rabs_pos (b - a)). lra.
  Qed.
End Loop.

(** ** Offsets always exist when nothing is negative *)
Section Exists.
  Context (inv : nat -> mat -> res mat) (K D : nat) (links : list (list nat)) (w0 w1 lam : R) (tops : mat).
  Context (V : inverts inv K) (NS : no_self_links D links).
  Context (P0 : (0 <= w0)%R) (P1 : (0 <= w1)%R) (PL : (0 < lam)%R).
  Context (PT : forall d k, d < D -> k < K -> (0 <= tops d k)%R).
  Notation linked := (has_link links).
  Notation loop := (lro_loop inv K D links w0 w1 lam tops).

  Lemma pull_nonneg p k : k < K -> (0 <= pull w0 w1 D linked tops p k)%R.
  Proof using P0 P1 PT.
    intros Hk. apply vsum_nonneg. intros d Hd. apply Rmult_le_pos; [|apply PT; assumption].
    unfold pair_weight. destruct (linked d p); [exact P1|]. destruct (d =? p); [lra|exact P0].
  Qed.
  Lemma spread_pos s p : p < D -> (0 < lam + vsum K (fun k => tops p k * (s * s * pull w0 w1 D linked tops p k)))%R.
  Proof using P0 P1 PL PT.
    intros L. assert (0 <= vsum K (fun k => tops p k * (s * s * pull w0 w1 D linked tops p k)))%R; [|lra].
    apply vsum_nonneg. intros k Hk. apply Rmult_le_pos; [apply PT; assumption|].
    apply Rmult_le_pos; [|apply pull_nonneg; exact Hk]. assert (Z := pow2_ge_0 s). lra.
  Qed.
  Lemma new_offsets_ok s : exists offs, new_offsets inv K D links w0 w1 lam tops s = Ok offs /\
    forall p j, p < D -> j < K -> offs p j = offset_is w0 w1 lam K D linked tops s p j.
  Proof using V NS P0 P1 PL PT.
    unfold new_offsets.
    destruct (mapM_rows (offset inv K D links w0 w1 lam tops s) (fun _ => 0%R) D
                (fun p o => forall j, j < K -> o j = offset_is w0 w1 lam K D linked tops s p j)) as [rows [E X]].
    - intros p L. apply offset_ok; try assumption; [lra|]. assert (Z := spread_pos s p L). lra.
    - rewrite E. cbn [bind]. eexists. split; [reflexivity|]. intros p j Hp Hj. apply X; assumption.
  Qed.

  (** One iteration, by what it stands for. *)
  Definition step_scale (offs : mat) : R := (side_r K D links w1 tops offs / side_l K D links w0 w1 tops offs)%R.
  Lemma loop_S n eps s0 offs0 : 0 < D ->
    loop (S n) eps s0 offs0
    = (if Req_EM_T s0 0 then Raise ValueError
       else if Req_EM_T (side_l K D links w0 w1 tops offs0) 0 then Raise ValueError
       else do offs' <- new_offsets inv K D links w0 w1 lam tops (step_scale offs0);
            do after <- norm_over K D offs' (step_scale offs0);
            if Rlt_dec (Rabs (sqrt (vsum D (fun p => vsum K (fun k => (offs0 p k / s0) ^ 2)))%R - after)) eps
            then Ok (step_scale offs0, offs') else loop n eps (step_scale offs0) offs').
  Proof using NS.
    clear V P0 P1 PL PT. intros L. cbn [lro_loop]. destruct (Nat.eqb_spec D 0); [lia|]. unfold norm_over at 1.
    destruct (Req_EM_T s0 0); [reflexivity|]. cbn [bind]. rewrite lhs_is by exact NS. rewrite rhs_is. reflexivity.
  Qed.

  (** Nothing but ValueError. *)
  Lemma loop_raises n eps s0 offs0 : 0 < D ->
    (exists s offs, loop n eps s0 offs0 = Ok (s, offs)) \/ loop n eps s0 offs0 = Raise ValueError.
  Proof using V NS P0 P1 PL PT.
    intros L. revert s0 offs0. induction n as [|n IH]; intros s0 offs0; [left; exists s0, offs0; reflexivity|].
    rewrite loop_S by exact L. destruct (Req_EM_T s0 0); [right; reflexivity|].
    destruct (Req_EM_T _ 0); [right; reflexivity|].
    destruct (new_offsets_ok (step_scale offs0)) as [o [E _]]. rewrite E. cbn [bind].
    unfold norm_over. destruct (Req_EM_T (step_scale offs0) 0); [right; reflexivity|]. cbn [bind].
    destruct (Rlt_dec _ _); [left; eexists; eexists; reflexivity|]. apply IH.
  Qed.

  (** One iteration, if both sides are positive. *)
  Lemma loop_one eps s0 offs0 : 0 < D -> s0 <> 0%R ->
    side_l K D links w0 w1 tops offs0 <> 0%R -> side_r K D links w1 tops offs0 <> 0%R ->
    exists offs, loop 1 eps s0 offs0 = Ok (step_scale offs0, offs) /\
      forall p j, p < D -> j < K -> offs p j = offset_is w0 w1 lam K D linked tops (step_scale offs0) p j.
  Proof using V NS P0 P1 PL PT.
    intros L N0 NL NR. rewrite loop_S by exact L. destruct (Req_EM_T s0 0); [contradiction|].
    destruct (Req_EM_T _ 0); [contradiction|].
    destruct (new_offsets_ok (step_scale offs0)) as [o [E X]]. rewrite E. cbn [bind].
    assert (NZ : step_scale offs0 <> 0%R).
    { unfold step_scale, Rdiv. apply Rmult_integral_contrapositive_currified; [exact NR|apply Rinv_neq_0_compat; exact NL]. }
    unfold norm_over. destruct (Req_EM_T (step_scale offs0) 0); [contradiction|]. cbn [bind].
    exists o. split; [|exact X]. destruct (Rlt_dec _ _); reflexivity.
  Qed.
End Exists.

(** ** Without links *)
Section Lonely.
  Context (inv : nat -> mat -> res mat) (K D : nat) (links : list (list nat)) (w0 w1 lam : R) (tops : mat).
  Context (V : inverts inv K) (PL : lam <> 0%R).
  Context (NL : forall d p, d < D -> ~ In p (nth d links [])).
  Lemma lonely_none d p : d < D -> has_link links d p = false.
  Proof using NL. intros L. unfold has_link. destruct (in_dec _ _ _) as [I|]; [destruct (NL d p L I)|reflexivity]. Qed.
  Lemma lonely_raises n eps s0 offs0 : 0 < D ->
    lro_loop inv K D links w0 w1 lam tops (S n) eps s0 offs0 = Raise ValueError.
  Proof using V PL NL.
    intros L. assert (NS : no_self_links D links) by (intros p Hp; apply NL; exact Hp).
    rewrite loop_S by assumption. destruct (Req_EM_T s0 0); [reflexivity|]. destruct (Req_EM_T _ 0) as [|N]; [reflexivity|].
    assert (Z : step_scale K D links w0 w1 tops offs0 = 0%R).
    { unfold step_scale, side_r. replace (vsum D _) with 0%R; [unfold Rdiv; ring|].
      symmetry. apply vsum_0. intros p Hp. apply vsum_0. intros d Hd. rewrite lonely_none by exact Hd. reflexivity. }
    rewrite Z. unfold new_offsets.
    destruct (mapM_rows (offset inv K D links w0 w1 lam tops 0%R) (fun _ => 0%R) D (fun _ _ => True)) as [rows [E _]].
    - intros p Hp. destruct (offset_ok inv K D links w0 w1 lam tops V NS 0%R p Hp PL) as [o [E _]]; [|exists o; auto].
      rewrite vsum_0; [rewrite Rplus_0_r; exact PL|]. intros; ring.
    - rewrite E. cbn [bind]. unfold norm_over. destruct (Req_EM_T 0 0); [reflexivity|lra].
  Qed.
End Lonely.

(** ** Documents in another order *)
Section Renumber.
  Context (D : nat) (order : list nat) (PO : Permutation order (seq 0 D)).
  Notation pi d := (nth d order 0).
  Lemma order_lt d : d < D -> pi d < D.
  Proof using PO.
    intros L. assert (In (pi d) (seq 0 D)).
    { apply (Permutation_in _ PO). apply nth_In. rewrite (Permutation_length PO), seq_length. exact L. }
    apply in_seq in H. lia.
  Qed.
  Lemma order_eqb d p : d < D -> p < D -> (pi d =? pi p) = (d =? p).
  Proof using PO.
    intros Ld Lp. destruct (Nat.eqb_spec d p) as [->|N]; [apply Nat.eqb_refl|].
    apply Nat.eqb_neq. intros E. apply N.
    assert (ND : NoDup order) by (apply (Permutation_NoDup (Permutation_sym PO)); apply seq_NoDup).
    assert (LN : length order = D) by (rewrite (Permutation_length PO); apply seq_length).
    apply (proj1 (NoDup_nth order 0) ND); rewrite ?LN; assumption.
  Qed.
  Lemma order_sum2 (f f' : nat -> nat -> R) : (forall d p, d < D -> p < D -> f' d p = f (pi d) (pi p)) ->
    vsum D (fun p => vsum D (fun d => f' d p)) = vsum D (fun p => vsum D (fun d => f d p)).
  Proof using PO.
    intros E. rewrite <- (vsum_permuted D order (fun p => vsum D (fun d => f d p)) PO). apply vsum_ext. intros p Hp.
    rewrite <- (vsum_permuted D order (fun d => f d (pi p)) PO). apply vsum_ext. intros d Hd. apply E; assumption.
  Qed.
End Renumber.
Section Order.
  Context (inv : nat -> mat -> res mat) (K D : nat) (links links' : list (list nat)) (w0 w1 lam : R) (tops tops' : mat).
  Context (V : inverts inv K) (NS : no_self_links D links).
  Context (P0 : (0 <= w0)%R) (P1 : (0 <= w1)%R) (PL : (0 < lam)%R).
  Context (PT : forall d k, d < D -> k < K -> (0 <= tops d k)%R).
  Context (order : list nat) (PO : Permutation order (seq 0 D)).
  Notation pi d := (nth d order 0).
  Context (HT : forall d k, d < D -> k < K -> tops' d k = tops (pi d) k).
  Context (HL : forall d p, d < D -> p < D -> has_link links' d p = has_link links (pi d) (pi p)).
  Notation linked := (has_link links).
  Notation linked' := (has_link links').
  Definition moved (offs offs' : mat) : Prop := forall d k, d < D -> k < K -> offs' d k = offs (pi d) k.

  Lemma order_weight d p : d < D -> p < D -> pair_weight w0 w1 linked' d p = pair_weight w0 w1 linked (pi d) (pi p).
  Proof using PO HL. intros. unfold pair_weight. rewrite HL, (order_eqb D order PO) by assumption. reflexivity. Qed.
  Lemma order_meet offs offs' d p : moved offs offs' -> d < D -> p < D ->
    meet K tops' offs' d p = meet K tops offs (pi d) (pi p).
  Proof using HT. intros M Ld Lp. apply vsum_ext. intros k Hk. rewrite HT, M by assumption. reflexivity. Qed.
  Lemma order_side_l offs offs' : moved offs offs' -> side_l K D links' w0 w1 tops' offs' = side_l K D links w0 w1 tops offs.
  Proof using PO HL HT.
    intros M. apply (order_sum2 D order PO (fun d p => (pair_weight w0 w1 linked d p * (meet K tops offs d p) ^ 2)%R)
                                (fun d p => (pair_weight w0 w1 linked' d p * (meet K tops' offs' d p) ^ 2)%R)).
    intros d p Ld Lp. rewrite order_weight, (order_meet offs) by assumption. reflexivity.
  Qed.
  Lemma order_side_r offs offs' : moved offs offs' -> side_r K D links' w1 tops' offs' = side_r K D links w1 tops offs.
  Proof using PO HL HT.
    intros M. apply (order_sum2 D order PO (fun d p => if linked d p then (w1 * meet K tops offs d p)%R else 0%R)
                                (fun d p => if linked' d p then (w1 * meet K tops' offs' d p)%R else 0%R)).
    intros d p Ld Lp. rewrite HL, (order_meet offs) by assumption. reflexivity.
  Qed.
  Lemma order_self : no_self_links D links'.
  Proof using PO HL NS.
    intros p Lp I. assert (E := HL p p Lp Lp). unfold has_link at 1 in E.
    destruct (in_dec Nat.eq_dec p (nth p links' [])); [|contradiction].
    rewrite (self_free D links) in E; [discriminate|exact NS|apply (order_lt D order PO); exact Lp].
  Qed.
  Lemma order_offset s p j : p < D -> j < K ->
    offset_is w0 w1 lam K D linked' tops' s p j = offset_is w0 w1 lam K D linked tops s (pi p) j.
  Proof using PO HL HT.
    intros Lp Lj.
    assert (EP : forall k, k < K -> pull w0 w1 D linked' tops' p k = pull w0 w1 D linked tops (pi p) k).
    { intros k Lk. unfold pull. rewrite <- (vsum_permuted D order (fun d => (pair_weight w0 w1 linked d (pi p) * tops d k)%R) PO).
      apply vsum_ext. intros d Ld. rewrite order_weight, HT by assumption. reflexivity. }
    assert (EF : forall k, k < K -> fans D linked' tops' p k = fans D linked tops (pi p) k).
    { intros k Lk. unfold fans. rewrite <- (vsum_permuted D order (fun d => if linked d (pi p) then tops d k else 0%R) PO).
      apply vsum_ext. intros d Ld. rewrite HL, HT by assumption. reflexivity. }
    unfold offset_is. cbv zeta. rewrite (HT p j) by assumption. rewrite (EP j Lj), (EF j Lj).
    rewrite (vsum_ext K (fun k => (tops' p k * (tops' p k + s * w1 * fans D linked' tops' p k))%R)
               (fun k => (tops (pi p) k * (tops (pi p) k + s * w1 * fans D linked tops (pi p) k))%R)).
    2: { intros k Lk. rewrite (HT p k), (EF k Lk) by assumption. reflexivity. }
    rewrite (vsum_ext K (fun k => (tops' p k * (s * s * pull w0 w1 D linked' tops' p k))%R)
               (fun k => (tops (pi p) k * (s * s * pull w0 w1 D linked tops (pi p) k))%R)).
    2: { intros k Lk. rewrite (HT p k), (EP k Lk) by assumption. reflexivity. }
    reflexivity.
  Qed.
  Lemma order_norm offs offs' s : moved offs offs' ->
    vsum D (fun p => vsum K (fun k => ((offs' p k / s) ^ 2)%R)) = vsum D (fun p => vsum K (fun k => ((offs p k / s) ^ 2)%R)).
  Proof using PO.
    intros M. rewrite <- (vsum_permuted D order (fun p => vsum K (fun k => ((offs p k / s) ^ 2)%R)) PO).
    apply vsum_ext. intros p Lp. apply vsum_ext. intros k Lk. rewrite M by assumption. reflexivity.
  Qed.
  Lemma order_loop n eps s0 offs0 offs0' : moved offs0 offs0' ->
    match lro_loop inv K D links w0 w1 lam tops n eps s0 offs0, lro_loop inv K D links' w0 w1 lam tops' n eps s0 offs0' with
    | Ok (s, offs), Ok (s', offs') => s' = s /\ moved offs offs'
    | Raise e, Raise e' => e' = e
    | _, _ => False
    end.
  Proof using PO HL HT V NS P0 P1 PL PT.
    revert s0 offs0 offs0'. induction n as [|n IH]; intros s0 offs0 offs0' M; [split; [reflexivity|exact M]|].
    destruct (Nat.eq_dec D 0) as [Z|Z].
    { cbn [lro_loop]. destruct (Nat.eqb_spec D 0); [reflexivity|contradiction]. }
    assert (NS' := order_self).
    assert (PT' : forall d k, d < D -> k < K -> (0 <= tops' d k)%R).
    { intros d k Ld Lk. rewrite HT by assumption. apply PT; [apply (order_lt D order PO)|]; assumption. }
    rewrite (loop_S inv K D links w0 w1 lam tops NS), (loop_S inv K D links' w0 w1 lam tops' NS') by lia.
    rewrite (order_side_l offs0 offs0' M).
    assert (ES : step_scale K D links' w0 w1 tops' offs0' = step_scale K D links w0 w1 tops offs0).
    { unfold step_scale. rewrite (order_side_l offs0 offs0' M), (order_side_r offs0 offs0' M). reflexivity. }
    rewrite ES, (order_norm offs0 offs0' s0 M).
    destruct (Req_EM_T s0 0); [reflexivity|]. destruct (Req_EM_T _ 0); [reflexivity|].
    destruct (new_offsets_ok inv K D links w0 w1 lam tops V NS P0 P1 PL PT (step_scale K D links w0 w1 tops offs0)) as [o [E X]].
    destruct (new_offsets_ok inv K D links' w0 w1 lam tops' V NS' P0 P1 PL PT' (step_scale K D links w0 w1 tops offs0)) as [o' [E' X']].
    rewrite E, E'. cbn [bind].
    assert (MO : moved o o').
    { intros d k Ld Lk. rewrite X', X by (try apply (order_lt D order PO); assumption). apply order_offset; assumption. }
    unfold norm_over. destruct (Req_EM_T _ 0); [reflexivity|]. cbn [bind].
    rewrite (order_norm o o' _ MO). destruct (Rlt_dec _ _); [split; [reflexivity|exact MO]|]. apply IH. exact MO.
  Qed.
End Order.
