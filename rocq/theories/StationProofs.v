(** * Samplers that move one token at a time: what their law is, that a law they leave
    alone is left alone by any number of visits, and that they forget where they began. *)
From Coq Require Import List ZArith QArith Qreals Reals Arith Bool Lra Lia.
From Verif Require Import Base RealModel RealProofs MixModel MixProofs VbModel VbProofs BoundSpec BoundProofs StationSpec.
Import ListNotations.
Open Scope nat_scope.

(** ** Shares of the random numbers *)
Lemma Q2R_between x y : (x < y)%R -> exists q, (x < Q2R q)%R /\ (Q2R q < y)%R.
Proof.
  intros H. assert (P : (0 < / (y - x))%R) by (apply Rinv_0_lt_compat; lra).
  destruct (archimed (/ (y - x))) as [A _]. set (n := up (/ (y - x))) in *.
  assert (PN : (0 < IZR n)%R) by lra. assert (PZ : (0 < n)%Z) by (apply lt_IZR; exact PN).
  destruct (archimed (IZR n * x)) as [B C]. set (m := up (IZR n * x)) in *.
  exists (m # Z.to_pos n)%Q. unfold Q2R. cbn [Qnum Qden]. rewrite Z2Pos.id by exact PZ.
  assert (E : (IZR n * (y - x) > 1)%R).
  { apply Rmult_lt_reg_r with (/ (y - x))%R; [exact P|]. rewrite Rmult_assoc, Rinv_r by lra. lra. }
  split; (apply Rmult_lt_reg_r with (IZR n); [exact PN|]); rewrite Rmult_assoc, Rinv_l by lra; lra.
Qed.
Lemma share_le P m m' : share P m -> share P m' -> (m <= m')%R.
Proof.
  intros (lo & hi & H0 & H1 & H2 & -> & H3) (lo' & hi' & G0 & G1 & G2 & -> & G3).
  destruct (Rle_lt_dec hi lo) as [E|L]; [lra|].
  assert (IN : forall q, (lo < Q2R q)%R -> (Q2R q < hi)%R -> (lo' < Q2R q)%R /\ (Q2R q <= hi')%R).
  { intros q A B. assert (0 < q)%Q by (apply Rlt_Qlt; rewrite RMicromega.Q2R_0; lra).
    assert (q <= 1)%Q by (apply Rle_Qle; rewrite RMicromega.Q2R_1; lra). apply G3; [assumption|assumption|]. apply H3; [assumption|assumption|lra]. }
  assert (lo' <= lo)%R.
  { destruct (Rle_lt_dec lo' lo) as [?|C]; [assumption|]. destruct (Q2R_between lo (Rmin lo' hi)) as (q & A & B).
    - apply Rmin_glb_lt; lra.
    - pose proof (Rmin_l lo' hi). pose proof (Rmin_r lo' hi). destruct (IN q ltac:(lra) ltac:(lra)). lra. }
  assert (hi <= hi')%R.
  { destruct (Rle_lt_dec hi hi') as [?|C]; [assumption|]. destruct (Q2R_between (Rmax lo hi') hi) as (q & A & B).
    - apply Rmax_lub_lt; lra.
    - pose proof (Rmax_l lo hi'). pose proof (Rmax_r lo hi'). destruct (IN q ltac:(lra) ltac:(lra)). lra. }
  lra.
Qed.
Lemma share_unique P m m' : share P m -> share P m' -> m = m'.
Proof. intros A B. apply Rle_antisym; eapply share_le; eassumption. Qed.
Lemma share_iff P P' m : (forall r, (0 < r)%Q -> (r <= 1)%Q -> (P r <-> P' r)) -> share P m -> share P' m.
Proof.
  intros E (lo & hi & H0 & H1 & H2 & H4 & H3). exists lo, hi. repeat (split; [assumption|]).
  intros r A B. rewrite <- (E r A B). apply H3; assumption.
Qed.
Lemma share_never (P : Q -> Prop) : (forall r, (0 < r)%Q -> (r <= 1)%Q -> ~ P r) -> share P 0.
Proof.
  intros H. exists 0%R, 0%R. repeat (split; [lra|]). intros r A B. split; [intros C; destruct (H r A B C)|intros; lra].
Qed.

(** ** Assignments *)
Lemma in_assignments K N a : In a (assignments K N) <-> length a = N /\ Forall (fun k => k < K) a.
Proof.
  revert a. induction N as [|N IH]; intros a; cbn [assignments].
  - split; [intros [<-|[]]; split; [reflexivity|constructor]|]. intros [L _]. destruct a; [left; reflexivity|discriminate L].
  - rewrite in_flat_map. split.
    + intros (k & Hk & H). apply in_map_iff in H as (a' & <- & H). apply IH in H as [L F]. apply in_seq in Hk.
      split; [cbn; congruence|]. constructor; [lia|exact F].
    + intros [L F]. destruct a as [|k a]; [discriminate L|]. injection L as L. inversion F as [|? ? Hk Fa]; subst.
      exists k. split; [apply in_seq; lia|]. apply in_map, IH. split; [reflexivity|exact Fa].
Qed.

Fixpoint put (n k : nat) (a : list nat) : list nat :=
  match a, n with
  | [], _ => []
  | _ :: a, O => k :: a
  | x :: a, S n => x :: put n k a
  end.
Lemma put_length n k a : length (put n k a) = length a.
Proof. revert n. induction a as [|x a IH]; intros [|n]; cbn; congruence. Qed.
Lemma put_same n k a : n < length a -> nth n (put n k a) 0 = k.
Proof. revert n. induction a as [|x a IH]; intros [|n] H; cbn in *; try lia. apply IH. lia. Qed.
Lemma put_other n m k a : m <> n -> nth m (put n k a) 0 = nth m a 0.
Proof. revert n m. induction a as [|x a IH]; intros [|n] [|m] H; cbn; try reflexivity; try lia. apply IH. lia. Qed.
Lemma put_put n k k' a : put n k (put n k' a) = put n k a.
Proof. revert n. induction a as [|x a IH]; intros [|n]; cbn; try reflexivity. f_equal. apply IH. Qed.
Lemma put_nth n a : put n (nth n a 0) a = a.
Proof. revert n. induction a as [|x a IH]; intros [|n]; cbn; try reflexivity. f_equal. apply IH. Qed.
Lemma put_in K N n k a : k < K -> In a (assignments K N) -> In (put n k a) (assignments K N).
Proof.
  intros Hk. rewrite !in_assignments. intros [L F]. split; [rewrite put_length; exact L|]. clear L. revert n.
  induction F as [|x a Hx F IH]; intros [|n]; cbn; constructor; auto.
Qed.
Lemma nth_in K N n a : 0 < K -> In a (assignments K N) -> nth n a 0 < K.
Proof.
  intros HK. rewrite in_assignments. intros [L F]. revert n. clear L. induction F as [|x a Hx F IH]; intros [|n]; cbn; auto.
Qed.

Definition eqa (a a' : list nat) : bool := if list_eq_dec Nat.eq_dec a a' then true else false.
Lemma eqa_refl a : eqa a a = true.
Proof. unfold eqa. destruct (list_eq_dec _ a a); congruence. Qed.
Lemma eqa_cons x y a b : eqa (x :: a) (y :: b) = (x =? y) && eqa a b.
Proof.
  unfold eqa. destruct (list_eq_dec _ (x :: a) (y :: b)) as [E|E]; destruct (Nat.eqb_spec x y); destruct (list_eq_dec _ a b); cbn; try reflexivity; exfalso; congruence.
Qed.
Lemma vsum_only K k f : k < K -> (forall j, j < K -> j <> k -> f j = 0%R) -> vsum K f = f k.
Proof.
  intros Hk H. rewrite (vsum_ext K f (fun j => 1 * (if j =? k then f k else 0))%R).
  - rewrite (vsum_pick K (fun _ => 1%R)) by exact Hk. ring.
  - intros j Hj. destruct (Nat.eqb_spec j k) as [->|E]; [ring|rewrite H by assumption; ring].
Qed.
Lemma total_ext_in K N f f' : (forall a, In a (assignments K N) -> f a = f' a) -> total K N f = total K N f'.
Proof. intros H. apply rsum_ext. exact H. Qed.
Lemma total_zero K N f : (forall a, In a (assignments K N) -> f a = 0%R) -> total K N f = 0%R.
Proof.
  intros H. unfold total. revert H. generalize (assignments K N). intros l. induction l as [|a l IH]; intros H; [reflexivity|].
  cbn [map rsum]. rewrite IH, (H a) by (auto using in_eq, in_cons). ring.
Qed.
Lemma total_only K N a' f : In a' (assignments K N) -> total K N (fun a => if eqa a a' then f a else 0%R) = f a'.
Proof.
  revert a' f. induction N as [|N IH]; intros a' f H.
  - rewrite total_0. apply in_assignments in H as [L _]. destruct a'; [|discriminate L]. reflexivity.
  - rewrite total_S. apply in_assignments in H as [L F]. destruct a' as [|y a']; [discriminate L|]. injection L as L.
    inversion F as [|? ? Hy Fa]; subst. rewrite (vsum_only K y); [|exact Hy|].
    + rewrite <- (IH a' (fun a => f (y :: a))); [|apply in_assignments; split; [reflexivity|exact Fa]].
      apply total_ext_in. intros a _. rewrite eqa_cons, Nat.eqb_refl. reflexivity.
    + intros j _ E. apply total_zero. intros a _. rewrite eqa_cons, (proj2 (Nat.eqb_neq j y) E). reflexivity.
Qed.
Lemma total_put K N n a' f : In a' (assignments K N) -> n < N ->
  total K N (fun a => if eqa (put n (nth n a' 0) a) a' then f a else 0%R) = vsum K (fun k => f (put n k a')).
Proof.
  revert n a' f. induction N as [|N IH]; intros n a' f H Hn; [lia|].
  apply in_assignments in H as [L F]. destruct a' as [|y a']; [discriminate L|]. injection L as L. inversion F as [|? ? Hy Fa]; subst.
  assert (IA : In a' (assignments K (length a'))) by (apply in_assignments; split; [reflexivity|exact Fa]).
  rewrite total_S. destruct n as [|n].
  - apply vsum_ext. intros k Hk. cbn [nth put]. rewrite <- (total_only K _ a' (fun a => f (k :: a)) IA). apply total_ext_in. intros a _.
    rewrite eqa_cons, Nat.eqb_refl. reflexivity.
  - rewrite (vsum_only K y); [|exact Hy|].
    + cbn [nth put]. rewrite <- (IH n a' (fun a => f (y :: a)) IA ltac:(lia)). apply total_ext_in. intros a _.
      rewrite eqa_cons, Nat.eqb_refl. reflexivity.
    + intros j _ E. apply total_zero. intros a _. cbn [nth put]. rewrite eqa_cons, (proj2 (Nat.eqb_neq j y) E). reflexivity.
Qed.
Lemma total_swap K N K' N' (f : list nat -> list nat -> R) :
  total K N (fun a => total K' N' (f a)) = total K' N' (fun a' => total K N (fun a => f a a')).
Proof.
  apply rsum_swap.
Qed.
Lemma total_scale K N c f : total K N (fun a => c * f a)%R = (c * total K N f)%R.
Proof. unfold total. rewrite <- rsum_scale, map_map. reflexivity. Qed.
Lemma total_plus K N f f' : total K N (fun a => f a + f' a)%R = (total K N f + total K N f')%R.
Proof. unfold total. apply rsum_plus. Qed.
Lemma total_le K N f f' : (forall a, In a (assignments K N) -> (f a <= f' a)%R) -> (total K N f <= total K N f')%R.
Proof.
  unfold total. generalize (assignments K N). intros l H. induction l as [|a l IH]; [apply Rle_refl|]. cbn [map rsum].
  apply Rplus_le_compat; [apply H; left; reflexivity|]. apply IH. intros; apply H; right; assumption.
Qed.
Lemma total_abs K N f : (Rabs (total K N f) <= total K N (fun a => Rabs (f a)))%R.
Proof.
  unfold total. generalize (assignments K N). intros l. induction l as [|a l IH]; cbn [map rsum]; [rewrite Rabs_R0; lra|].
  eapply Rle_trans; [apply Rabs_triang|]. lra.
Qed.
Lemma total_nonneg K N f : (forall a, In a (assignments K N) -> (0 <= f a)%R) -> (0 <= total K N f)%R.
Proof. intros H. rewrite <- (total_zero K N (fun _ => 0%R)) by reflexivity. apply total_le, H. Qed.

(** ** The law after some visits *)
Section Kernel.
  Context {V : Type} (K N : nat) (HK : 0 < K) (pos : V -> nat) (q : V -> list nat -> nat -> R).
  Notation A := (assignments K N).
  Definition legal (v : V) : Prop :=
    pos v < N /\ forall a, In a A -> (forall k, k < K -> (0 <= q v a k)%R) /\ vsum K (q v a) = 1%R.

  Definition prob (v : V) (a a' : list nat) : R :=
    if eqa (put (pos v) (nth (pos v) a' 0) a) a' then q v a (nth (pos v) a' 0) else 0%R.
  Definition step (v : V) (mu : list nat -> R) (a' : list nat) : R := total K N (fun a => mu a * prob v a a')%R.
  Definition steps (vs : list V) (mu : list nat -> R) : list nat -> R := fold_left (fun mu v => step v mu) vs mu.
  Definition same (mu nu : list nat -> R) : Prop := forall a, In a A -> mu a = nu a.

  Lemma step_same v mu nu : same mu nu -> step v mu = step v nu \/ same (step v mu) (step v nu).
  Proof. intros H. right. intros a _. apply total_ext_in. intros b Hb. rewrite (H b Hb). reflexivity. Qed.
  Lemma steps_same vs : forall mu nu, same mu nu -> same (steps vs mu) (steps vs nu).
  Proof.
    induction vs as [|v vs IH]; intros mu nu H; [exact H|]. cbn. apply IH. intros a Ha. apply total_ext_in. intros b Hb. rewrite (H b Hb). reflexivity.
  Qed.
  Lemma step_alt v mu a' : pos v < N -> In a' A ->
    step v mu a' = vsum K (fun k => mu (put (pos v) k a') * q v (put (pos v) k a') (nth (pos v) a' 0%nat))%R.
  Proof.
    intros Hn Ha. unfold step, prob.
    rewrite <- (total_put K N (pos v) a' (fun a => mu a * q v a (nth (pos v) a' 0%nat))%R Ha Hn).
    apply total_ext_in. intros a _. destruct (eqa _ _); ring.
  Qed.
  (** The probabilities of the next assignment add up to one. *)
  Lemma prob_total v a : legal v -> In a A -> total K N (fun a' => prob v a a') = 1%R.
  Proof.
    intros [Hn H] Ha. destruct (H a Ha) as [_ <-]. unfold prob.
    rewrite <- (vsum_ext K (fun k => q v a (nth (pos v) (put (pos v) k a) 0)) (q v a)).
    - rewrite <- (total_put K N (pos v) a (fun a' => q v a (nth (pos v) a' 0%nat)) Ha Hn). apply total_ext_in. intros a' Ha'.
      destruct (eqa (put (pos v) (nth (pos v) a' 0) a) a') eqn:E1; destruct (eqa (put (pos v) (nth (pos v) a 0) a') a) eqn:E2; try reflexivity; exfalso;
        unfold eqa in *; destruct (list_eq_dec _ _ _) as [e1|e1] in E1; try discriminate E1;
        destruct (list_eq_dec _ _ _) as [e2|e2] in E2; try discriminate E2; [apply e2|apply e1].
      + rewrite <- e1, put_put. apply put_nth.
      + rewrite <- e2. rewrite put_put. apply put_nth.
    - intros k Hk. rewrite put_same; [reflexivity|]. apply in_assignments in Ha as [-> _]. exact Hn.
  Qed.
  Lemma prob_nonneg v a a' : legal v -> In a A -> In a' A -> (0 <= prob v a a')%R.
  Proof.
    intros [Hn H] Ha Ha'. unfold prob. destruct (eqa _ _); [|lra]. apply H; [exact Ha|]. eapply nth_in; eassumption.
  Qed.

  (** *** A law that fits the conditional probabilities is left alone. *)
  Definition fits (pi : list nat -> R) (v : V) : Prop :=
    forall a k, In a A -> k < K -> pi (put (pos v) k a) = (vsum K (fun j => pi (put (pos v) j a)) * q v a k)%R /\
                                   forall j, q v (put (pos v) k a) j = q v a j.
  Lemma step_fits pi v : pos v < N -> fits pi v -> same (step v pi) pi.
  Proof.
    intros Hn F a' Ha. rewrite step_alt by assumption.
    rewrite (vsum_ext K _ (fun k => pi (put (pos v) k a') * q v a' (nth (pos v) a' 0%nat))%R).
    - rewrite vsum_scale_r. destruct (F a' (nth (pos v) a' 0) Ha (nth_in K N _ _ HK Ha)) as [<- _]. rewrite put_nth. reflexivity.
    - intros k Hk. destruct (F a' k Ha Hk) as [_ ->]. reflexivity.
  Qed.
  Lemma steps_fit pi vs : (forall v, In v vs -> pos v < N /\ fits pi v) -> same (steps vs pi) pi.
  Proof.
    induction vs as [|v vs IH]; intros H; [intros a _; reflexivity|]. change (same (steps vs (step v pi)) pi).
    destruct (H v (or_introl eq_refl)) as [Hn F]. intros a Ha. rewrite (steps_same vs (step v pi) pi (step_fits pi v Hn F) a Ha).
    apply IH; [intros; apply H; right; assumption|exact Ha].
  Qed.

  (** *** The law is linear in the law it begins with. *)
  Lemma steps_sum vs mu : forall a', In a' A -> steps vs mu a' = total K N (fun a => mu a * steps vs (certainly a) a')%R.
  Proof.
    revert mu. induction vs as [|v vs IH]; intros mu a' Ha.
    - cbn. unfold certainly. rewrite <- (total_only K N a' mu Ha) at 1. apply total_ext_in. intros a _. unfold eqa.
      destruct (list_eq_dec _ a a'), (list_eq_dec _ a' a); try ring; exfalso; congruence.
    - cbn [steps fold_left]. fold (steps vs (step v mu)). rewrite IH by exact Ha. unfold step.
      rewrite (total_ext_in K N _ (fun a => total K N (fun b => mu b * (prob v b a * steps vs (certainly a) a')))%R).
      2:{ intros a _. rewrite Rmult_comm, <- total_scale. apply total_ext_in. intros b _. ring. }
      rewrite total_swap. apply total_ext_in. intros b Hb. rewrite total_scale. f_equal.
      fold (steps vs (step v (certainly b))). rewrite IH by exact Ha. apply total_ext_in. intros a Ha'. f_equal.
      unfold step. rewrite (total_ext_in K N _ (fun c => if eqa c b then prob v c a else 0%R)).
      + symmetry. apply (total_only K N b (fun c => prob v c a) Hb).
      + intros c _. unfold certainly, eqa. destruct (list_eq_dec _ c b); ring.
  Qed.
  Lemma steps_nonneg vs : (forall v, In v vs -> legal v) -> forall mu, (forall a, In a A -> (0 <= mu a)%R) ->
    forall a, In a A -> (0 <= steps vs mu a)%R.
  Proof.
    induction vs as [|v vs IH]; intros H mu P a Ha; [apply P, Ha|]. cbn. apply IH; [intros; apply H; right; assumption| |exact Ha].
    intros b Hb. apply total_nonneg. intros c Hc. apply Rmult_le_pos; [apply P, Hc|]. apply prob_nonneg; auto. apply H. left; reflexivity.
  Qed.
  Lemma steps_total vs : (forall v, In v vs -> legal v) -> forall mu, total K N (steps vs mu) = total K N mu.
  Proof.
    induction vs as [|v vs IH]; intros H mu; [reflexivity|]. cbn [steps fold_left]. fold (steps vs (step v mu)).
    rewrite IH by (intros; apply H; right; assumption). unfold step. rewrite total_swap. apply total_ext_in. intros a Ha.
    rewrite total_scale, prob_total; [ring|apply H; left; reflexivity|exact Ha].
  Qed.

  (** *** Every assignment is reached with positive probability. *)
  Fixpoint puts (vs : list V) (a' a : list nat) : list nat :=
    match vs with [] => a | v :: vs => puts vs a' (put (pos v) (nth (pos v) a' 0) a) end.
  Lemma puts_nth vs a' : forall a n, length a = length a' -> (In n (map pos vs) -> n < length a) -> nth n (puts vs a' a) 0 = if existsb (Nat.eqb n) (map pos vs) then nth n a' 0 else nth n a 0.
  Proof.
    induction vs as [|v vs IH]; intros a n L H; [reflexivity|]. cbn [puts map existsb]. rewrite IH.
    - destruct (existsb (Nat.eqb n) (map pos vs)); [rewrite orb_true_r; reflexivity|]. rewrite orb_false_r.
      destruct (Nat.eqb_spec n (pos v)) as [->|E]; [apply put_same, H; left; reflexivity|apply put_other; exact E].
    - rewrite put_length. exact L.
    - intros Hn. rewrite put_length. apply H. right. exact Hn.
  Qed.
  Lemma puts_length vs a' : forall a, length (puts vs a' a) = length a.
  Proof. induction vs as [|v vs IH]; intros a; [reflexivity|]. cbn. rewrite IH. apply put_length. Qed.
  Lemma puts_all vs a' a : In a A -> In a' A -> (forall v, In v vs -> pos v < N) -> (forall n, n < N -> In n (map pos vs)) -> puts vs a' a = a'.
  Proof.
    clear HK q. rewrite !in_assignments. intros [L _] [L' _] B C. apply nth_ext with 0 0; [rewrite puts_length; congruence|].
    intros n Hn. rewrite puts_length, L in Hn. rewrite puts_nth; [|congruence|intros; lia].
    rewrite (proj2 (existsb_exists _ _)); [reflexivity|]. exists n. split; [apply C, Hn|apply Nat.eqb_refl].
  Qed.
  Lemma steps_scale vs c mu : forall a, In a A -> steps vs (fun a => c * mu a)%R a = (c * steps vs mu a)%R.
  Proof.
    intros a Ha. rewrite steps_sum, (steps_sum vs mu) by exact Ha. rewrite <- total_scale. apply total_ext_in. intros; ring.
  Qed.
  Lemma steps_mono vs : (forall v, In v vs -> legal v) -> forall mu nu, (forall a, In a A -> (mu a <= nu a)%R) ->
    forall a, In a A -> (steps vs mu a <= steps vs nu a)%R.
  Proof.
    intros H mu nu P a Ha. rewrite (steps_sum vs mu), (steps_sum vs nu) by exact Ha. apply total_le. intros b Hb.
    apply Rmult_le_compat_r; [|apply P, Hb]. apply steps_nonneg; [exact H| |exact Ha]. intros c _. unfold certainly. destruct (list_eq_dec _ c b); lra.
  Qed.
  Lemma steps_reach eps vs a' : In a' A -> (0 <= eps)%R -> (forall v, In v vs -> legal v) ->
    (forall v a k, In v vs -> In a A -> k < K -> (eps <= q v a k)%R) ->
    forall a, In a A -> puts vs a' a = a' -> (eps ^ length vs <= steps vs (certainly a) a')%R.
  Proof.
    intros Ha' He. induction vs as [|v vs IH]; intros H B a Ha E.
    - cbn in *. subst a'. unfold certainly. destruct (list_eq_dec _ a a); [lra|congruence].
    - cbn [puts] in E. set (b := put (pos v) (nth (pos v) a' 0) a) in *.
      assert (Hx : nth (pos v) a' 0 < K) by (eapply nth_in; eassumption).
      assert (Hb : In b A) by (apply put_in; assumption).
      pose proof (IH ltac:(intros; apply H; right; assumption) ltac:(intros; apply B; [right|..]; assumption) b Hb E) as G.
      cbn [steps fold_left length pow]. fold (steps vs (step v (certainly a))).
      apply Rle_trans with (steps vs (fun c => eps * certainly b c)%R a').
      + rewrite steps_scale by exact Ha'. apply Rmult_le_compat_l; assumption.
      + apply steps_mono; [intros; apply H; right; assumption| |exact Ha']. intros c Hc.
        assert (ST : step v (certainly a) c = prob v a c).
        { unfold step. rewrite (total_ext_in K N _ (fun c0 => if eqa c0 a then prob v c0 c else 0%R)).
          - apply (total_only K N a (fun c0 => prob v c0 c) Ha).
          - intros c0 _. unfold certainly, eqa. destruct (list_eq_dec _ c0 a); ring. }
        rewrite ST. unfold certainly. destruct (list_eq_dec _ c b) as [->|NE].
        * unfold prob. assert (EX : nth (pos v) b 0 = nth (pos v) a' 0).
          { apply put_same. apply in_assignments in Ha as [-> _]. apply (H v). left; reflexivity. }
          rewrite EX. fold b. rewrite eqa_refl. rewrite Rmult_1_r. apply B; [left; reflexivity|exact Ha|exact Hx].
        * rewrite Rmult_0_r. apply prob_nonneg; auto. apply H. left; reflexivity.
  Qed.

  (** *** Where it began is forgotten. *)
  Definition dist1 (mu nu : list nat -> R) : R := total K N (fun a => Rabs (mu a - nu a)%R).
  Lemma contract vs c mu nu : (forall v, In v vs -> legal v) -> (0 <= c)%R -> total K N mu = total K N nu ->
    (forall a a', In a A -> In a' A -> (c <= steps vs (certainly a) a')%R) ->
    (dist1 (steps vs mu) (steps vs nu) <= (1 - c) * dist1 mu nu)%R.
  Proof.
    intros H Hc E B. unfold dist1.
    apply Rle_trans with (total K N (fun a' => total K N (fun a => Rabs (mu a - nu a) * (steps vs (certainly a) a' - c))))%R.
    - apply total_le. intros a' Ha'. rewrite (steps_sum vs mu), (steps_sum vs nu) by exact Ha'.
      replace (total K N (fun a => mu a * steps vs (certainly a) a') - total K N (fun a => nu a * steps vs (certainly a) a'))%R
        with (total K N (fun a => (mu a - nu a) * (steps vs (certainly a) a' - c)))%R.
      + eapply Rle_trans; [apply total_abs|]. apply total_le. intros a Ha. rewrite Rabs_mult. apply Rmult_le_compat_l; [apply Rabs_pos|].
        pose proof (B a a' Ha Ha'). rewrite Rabs_right; lra.
      + rewrite (total_ext_in K N _ (fun a => (mu a * steps vs (certainly a) a' + -1 * (nu a * steps vs (certainly a) a')) + ((- c) * mu a + c * nu a))%R) by (intros; ring).
        rewrite !total_plus, !total_scale, E. ring.
    - rewrite total_swap, <- total_scale. apply total_le. intros a Ha. rewrite total_scale, Rmult_comm. apply Rmult_le_compat_r; [apply Rabs_pos|].
      rewrite (total_ext_in K N _ (fun a' => steps vs (certainly a) a' + (- c) * 1)%R) by (intros; ring).
      rewrite total_plus, steps_total, total_scale by exact H.
      assert (E1 : total K N (certainly a) = 1%R).
      { rewrite (total_ext_in K N _ (fun b => if eqa b a then 1%R else 0%R)); [apply (total_only K N a (fun _ => 1%R) Ha)|].
        intros b _. unfold certainly, eqa. destruct (list_eq_dec _ b a); reflexivity. }
      rewrite E1.
      assert (E2 : (1 <= total K N (fun _ => 1))%R).
      { apply Rle_trans with (total K N (certainly a)); [rewrite E1; lra|]. apply total_le. intros b _. unfold certainly. destruct (list_eq_dec _ b a); lra. }
      assert (c * 1 <= c * total K N (fun _ => 1))%R by (apply Rmult_le_compat_l; assumption). lra.
  Qed.
  Lemma dist1_nonneg mu nu : (0 <= dist1 mu nu)%R.
  Proof. apply total_nonneg. intros. apply Rabs_pos. Qed.
  Lemma steps_app vs vs' mu : steps (vs ++ vs') mu = steps vs' (steps vs mu).
  Proof. unfold steps. apply fold_left_app. Qed.

  (** Rounds of visits [ws i], each to all tokens. *)
  Lemma rounds_contract (ws : nat -> list V) c mu nu : (0 <= c)%R -> (c <= 1)%R -> (forall i v, In v (ws i) -> legal v) ->
    (forall i a a', In a A -> In a' A -> (c <= steps (ws i) (certainly a) a')%R) ->
    total K N mu = total K N nu ->
    forall n, (dist1 (steps (flat_map ws (seq 0 n)) mu) (steps (flat_map ws (seq 0 n)) nu) <= (1 - c) ^ n * dist1 mu nu)%R.
  Proof.
    intros Hc Hc1 H B E n. induction n as [|n IH]; [cbn; lra|].
    rewrite seq_S, flat_map_app, !steps_app. cbn [flat_map Nat.add]. rewrite app_nil_r. cbn [pow].
    eapply Rle_trans; [apply (contract (ws n) c)|].
    - apply H.
    - exact Hc.
    - rewrite !steps_total; [exact E|..]; intros v Hv; apply in_flat_map in Hv as (i & _ & Hv); apply (H i v Hv).
    - apply B.
    - rewrite Rmult_assoc. apply Rmult_le_compat_l; [lra|exact IH].
  Qed.
  Lemma rounds_forget (ws : nat -> list V) eps m mu nu : (0 < eps)%R -> (eps <= 1)%R ->
    (forall i v, In v (ws i) -> legal v) -> (forall i v a k, In v (ws i) -> In a A -> k < K -> (eps <= q v a k)%R) ->
    (forall i n, n < N -> In n (map pos (ws i))) -> (forall i, length (ws i) = m) ->
    total K N mu = total K N nu ->
    forall n, (dist1 (steps (flat_map ws (seq 0 n)) mu) (steps (flat_map ws (seq 0 n)) nu) <= (1 - eps ^ m) ^ n * dist1 mu nu)%R.
  Proof.
    intros He He1 H B C L E. apply rounds_contract; [apply pow_le; lra| |exact H| |exact E].
    - rewrite <- (pow1 m). apply pow_incr. lra.
    - intros i a a' Ha Ha'. rewrite <- (L i). apply steps_reach; [exact Ha'|lra|apply H|apply B|exact Ha|].
      apply puts_all; [exact Ha|exact Ha'|intros v Hv; apply (H i v Hv)|apply C].
  Qed.

  (** *** The specification of the law. *)
  Context (moves : V -> list nat -> Q -> list nat -> Prop).
  Lemma after_steps vs mu mu' : (forall v, In v vs -> forall a a', In a A -> In a' A -> share (fun r => moves v a r a') (prob v a a')) ->
    after K N moves vs mu mu' -> same mu' (steps vs mu).
  Proof.
    intros H AF. induction AF as [mu|v vs mu p mu1 mu2 S E AF IH]; [intros a _; reflexivity|].
    intros a Ha. rewrite (IH ltac:(intros; apply H; [right|..]; assumption) a Ha). cbn [steps fold_left]. apply steps_same; [|exact Ha].
    intros b Hb. rewrite (E b Hb). apply total_ext_in. intros c Hc. f_equal.
    apply (share_unique _ _ _ (S c b Hc Hb)). apply H; [left; reflexivity|assumption|assumption].
  Qed.
  Lemma after_exists vs mu : (forall v, In v vs -> forall a a', In a A -> In a' A -> share (fun r => moves v a r a') (prob v a a')) ->
    after K N moves vs mu (steps vs mu).
  Proof.
    revert mu. induction vs as [|v vs IH]; intros mu H; [apply after_none|]. cbn [steps fold_left]. apply after_visit with (p := prob v) (mu1 := step v mu).
    - apply H. left; reflexivity.
    - intros a' _. reflexivity.
    - apply IH. intros; apply H; [right|..]; assumption.
  Qed.

  (** *** Averages along the rounds *)
  Fixpoint expv (rs : list (list V)) (a : list nat) (F : list (list nat) -> R) : R :=
    match rs with
    | [] => F []
    | vs :: rs => total K N (fun a' => steps vs (certainly a) a' * expv rs a' (fun path => F (a' :: path)))%R
    end.
  Lemma expects_expv rs a F x : (forall v, In v (concat rs) -> forall a a', In a A -> In a' A -> share (fun r => moves v a r a') (prob v a a')) ->
    expects K N moves rs a F x -> x = expv rs a F.
  Proof.
    intros H EX. revert H. induction EX as [a F|vs rs a F mu e AF EX IH]; intros H; [reflexivity|]. cbn [expv]. apply rsum_ext. intros a' Ha'.
    cbn [concat] in H.
    rewrite (after_steps vs (certainly a) mu ltac:(intros; apply H; [apply in_or_app; left|..]; assumption) AF a' Ha').
    rewrite (IH a' Ha'); [reflexivity|]. intros; apply H; [apply in_or_app; right|..]; assumption.
  Qed.
  Lemma expects_exists rs : forall a F, (forall v, In v (concat rs) -> forall a a', In a A -> In a' A -> share (fun r => moves v a r a') (prob v a a')) ->
    exists x, expects K N moves rs a F x.
  Proof.
    intros a F H. exists (expv rs a F). revert a F. induction rs as [|vs rs IH]; intros a F; [apply expects_none|]. cbn [expv concat] in *.
    apply (expects_round K N moves vs rs a F (steps vs (certainly a)) (fun a' => expv rs a' (fun path => F (a' :: path)))).
    - apply after_exists. intros; apply H; [apply in_or_app; left|..]; assumption.
    - intros a' _. apply IH. intros; apply H; [apply in_or_app; right|..]; assumption.
  Qed.

  Lemma expv_ext rs : forall a F F', (forall p, length p = length rs -> F p = F' p) -> expv rs a F = expv rs a F'.
  Proof.
    induction rs as [|vs rs IH]; intros a F F' H; [apply H; reflexivity|]. cbn [expv]. apply total_ext_in. intros a' _. f_equal. apply IH.
    intros p L. apply H. cbn. congruence.
  Qed.
  Lemma expv_plus rs : forall a F F', expv rs a (fun p => F p + F' p)%R = (expv rs a F + expv rs a F')%R.
  Proof.
    induction rs as [|vs rs IH]; intros a F F'; [reflexivity|]. cbn [expv]. rewrite <- total_plus. apply total_ext_in. intros a' _. rewrite IH. ring.
  Qed.
  Lemma expv_scale rs : forall a c F, expv rs a (fun p => c * F p)%R = (c * expv rs a F)%R.
  Proof.
    induction rs as [|vs rs IH]; intros a c F; [reflexivity|]. cbn [expv]. rewrite <- total_scale. apply total_ext_in. intros a' _. rewrite IH. ring.
  Qed.
  Lemma certainly_total a : In a A -> total K N (certainly a) = 1%R.
  Proof.
    intros Ha. rewrite (total_ext_in K N _ (fun b => if eqa b a then 1%R else 0%R)); [apply (total_only K N a (fun _ => 1%R) Ha)|].
    intros b _. unfold certainly, eqa. destruct (list_eq_dec _ b a); reflexivity.
  Qed.
  Lemma certainly_nonneg a b : (0 <= certainly a b)%R.
  Proof. unfold certainly. destruct (list_eq_dec _ b a); lra. Qed.
  Lemma expv_const rs : (forall v, In v (concat rs) -> legal v) -> forall a c, In a A -> expv rs a (fun _ => c) = c.
  Proof.
    induction rs as [|vs rs IH]; intros H a c Ha; [reflexivity|]. cbn [expv concat] in *.
    rewrite (total_ext_in K N _ (fun a' => c * steps vs (certainly a) a')%R).
    - rewrite total_scale, steps_total, certainly_total by (try exact Ha; intros; apply H, in_or_app; left; assumption). ring.
    - intros a' Ha'. rewrite IH by (try exact Ha'; intros; apply H, in_or_app; right; assumption). ring.
  Qed.

  Context (pi : list nat -> R) (Hpi : forall a, In a A -> (0 <= pi a)%R) (Tpi : total K N pi = 1%R).
  Context (c M : R) (Hc : (0 < c)%R) (Hc1 : (c <= 1)%R) (h : list nat -> R) (Hh : forall a, In a A -> (Rabs (h a) <= M)%R).
  Context (Ch : total K N (fun a => pi a * h a)%R = 0%R).
  Definition mixes (vs : list V) : Prop :=
    (forall v, In v vs -> legal v) /\ (forall a a', In a A -> In a' A -> (c <= steps vs (certainly a) a')%R) /\ same (steps vs pi) pi.

  Lemma average_op vs f : mixes vs -> total K N (fun a => pi a * f a)%R = 0%R -> forall B, (forall a, In a A -> (Rabs (f a) <= B)%R) ->
    (forall a, In a A -> (Rabs (total K N (fun a' => steps vs (certainly a) a' * f a')) <= (1 - c) * B)%R) /\
    total K N (fun a => pi a * total K N (fun a' => steps vs (certainly a) a' * f a'))%R = 0%R.
  Proof.
    intros (L & R & I) C B HB. split.
    - intros a Ha.
      replace (total K N (fun a' => steps vs (certainly a) a' * f a'))%R with (total K N (fun a' => (steps vs (certainly a) a' - c * pi a') * f a'))%R.
      2:{ rewrite (total_ext_in K N _ (fun a' => steps vs (certainly a) a' * f a' + (- c) * (pi a' * f a'))%R) by (intros; ring).
          rewrite total_plus, total_scale, C. ring. }
      eapply Rle_trans; [apply total_abs|].
      apply Rle_trans with (total K N (fun a' => B * (steps vs (certainly a) a' + (- c) * pi a')))%R.
      + apply total_le. intros a' Ha'. rewrite Rabs_mult.
        assert (P1 : (pi a' <= 1)%R).
        { rewrite <- Tpi. rewrite <- (total_only K N a' pi Ha'). apply total_le. intros b Hb. destruct (eqa b a'); [lra|apply Hpi, Hb]. }
        assert (c * pi a' <= c * 1)%R by (apply Rmult_le_compat_l; lra). pose proof (R a a' Ha Ha').
        rewrite Rabs_right by lra. rewrite (Rmult_comm B). replace (steps vs (certainly a) a' + - c * pi a')%R with (steps vs (certainly a) a' - c * pi a')%R by ring.
        apply Rmult_le_compat_l; [lra|apply HB, Ha'].
      + rewrite total_scale, total_plus, total_scale, steps_total, certainly_total, Tpi by assumption. lra.
    - rewrite (total_ext_in K N _ (fun a => total K N (fun a' => f a' * (pi a * steps vs (certainly a) a'))))%R.
      2:{ intros a _. rewrite <- total_scale. apply total_ext_in. intros; ring. }
      rewrite total_swap. rewrite (total_ext_in K N _ (fun a' => pi a' * f a')%R); [exact C|].
      intros a' Ha'. rewrite total_scale, <- steps_sum by exact Ha'. rewrite (I a' Ha'). ring.
  Qed.
  Definition hsum (p : list (list nat)) : R := rsum (map h p).
  Lemma M_nonneg a : In a A -> (0 <= M)%R.
  Proof. intros Ha. eapply Rle_trans; [apply Rabs_pos|apply (Hh a Ha)]. Qed.
  Lemma concat_legal rs : (forall vs, In vs rs -> mixes vs) -> forall v, In v (concat rs) -> legal v.
  Proof. intros H v Hv. apply in_concat in Hv as (vs & Hvs & Hv). apply (proj1 (H vs Hvs) v Hv). Qed.
  Lemma sum_bound rs : (forall vs, In vs rs -> mixes vs) ->
    (forall a, In a A -> (Rabs (expv rs a hsum) <= M / c)%R) /\ total K N (fun a => pi a * expv rs a hsum)%R = 0%R.
  Proof.
    induction rs as [|vs rs IH]; intros H.
    - split; [|apply total_zero; intros; cbn; ring]. intros a Ha. cbn. rewrite Rabs_R0. apply Rle_mult_inv_pos; [apply (M_nonneg a Ha)|exact Hc].
    - destruct (IH ltac:(intros; apply H; right; assumption)) as [B1 B2]. cbn [expv].
      assert (E : forall a, total K N (fun a' => steps vs (certainly a) a' * expv rs a' (fun path => hsum (a' :: path)))%R =
                            total K N (fun a' => steps vs (certainly a) a' * (h a' + expv rs a' hsum))%R).
      { intros a. apply total_ext_in. intros a' Ha'. f_equal. change (fun path => hsum (a' :: path)) with (fun path => (h a' + hsum path)%R).
        rewrite (expv_plus rs a' (fun _ => h a')), expv_const; [reflexivity| |exact Ha'].
        apply concat_legal. intros; apply H; right; assumption. }
      destruct (average_op vs (fun a => h a + expv rs a hsum)%R (H vs (or_introl eq_refl))) with (B := (M + M / c)%R) as [O1 O2].
      + rewrite (total_ext_in K N _ (fun a => pi a * h a + pi a * expv rs a hsum)%R) by (intros; ring). rewrite total_plus, Ch, B2. ring.
      + intros a Ha. eapply Rle_trans; [apply Rabs_triang|]. apply Rplus_le_compat; auto.
      + split.
        * intros a Ha. rewrite E. eapply Rle_trans; [apply O1, Ha|]. pose proof (M_nonneg a Ha) as PM.
          replace ((1 - c) * (M + M / c))%R with (M / c - c * M)%R by (field; lra). assert (0 <= c * M)%R by (apply Rmult_le_pos; lra). lra.
        * rewrite <- O2. apply total_ext_in. intros a _. f_equal. apply E.
  Qed.
  Lemma square_bound rs : (forall vs, In vs rs -> mixes vs) -> forall a, In a A ->
    (expv rs a (fun p => hsum p * hsum p) <= INR (length rs) * (M * M + 2 * (M * (M / c))))%R.
  Proof.
    induction rs as [|vs rs IH]; intros H a Ha; [cbn; lra|].
    assert (H' : forall vs, In vs rs -> mixes vs) by (intros; apply H; right; assumption).
    pose proof (M_nonneg a Ha) as PM. destruct (sum_bound rs H') as [B _]. cbn [expv length]. rewrite S_INR.
    set (C := (M * M + 2 * (M * (M / c)))%R) in *.
    apply Rle_trans with (total K N (fun a' => (INR (length rs) + 1) * C * steps vs (certainly a) a'))%R.
    - apply total_le. intros a' Ha'. rewrite (Rmult_comm (steps _ _ _)). apply Rmult_le_compat_r.
      + apply steps_nonneg; [apply (H vs (or_introl eq_refl))| |exact Ha']. intros; apply certainly_nonneg.
      + rewrite (expv_ext rs a' _ (fun p => (h a' * h a' + (2 * h a') * hsum p) + hsum p * hsum p)%R)
          by (intros p _; unfold hsum; cbn [map rsum]; ring).
        rewrite (expv_plus rs a' (fun p => h a' * h a' + 2 * h a' * hsum p)%R), (expv_plus rs a' (fun _ => h a' * h a')%R), (expv_scale rs a' (2 * h a')%R hsum), expv_const;
          [|apply concat_legal; exact H'|exact Ha'].
        pose proof (IH H' a' Ha') as I1. pose proof (Hh a' Ha') as I2. pose proof (B a' Ha') as I3.
        assert (h a' * h a' <= M * M)%R.
        { rewrite <- (Rabs_right (h a' * h a')) by (apply Rle_ge, Rle_0_sqr). rewrite Rabs_mult. apply Rmult_le_compat; try apply Rabs_pos; assumption. }
        assert (h a' * expv rs a' hsum <= M * (M / c))%R.
        { eapply Rle_trans; [apply Rle_abs|]. rewrite Rabs_mult. apply Rmult_le_compat; try apply Rabs_pos; assumption. }
        rewrite Rmult_plus_distr_r, Rmult_1_l. unfold C at 2. change (expv rs a' (fun p => hsum p)) with (expv rs a' hsum). lra.
    - rewrite total_scale, steps_total, certainly_total; [lra|exact Ha|apply (H vs (or_introl eq_refl))].
  Qed.
End Kernel.

(** The mean square distance of the average from the mean. *)
Lemma mean_square {V} K N (HK : 0 < K) (pos : V -> nat) q pi c M f rs a :
  (forall a, In a (assignments K N) -> (0 <= pi a)%R) -> BoundProofs.total K N pi = 1%R -> (0 < c)%R -> (c <= 1)%R ->
  (forall a, In a (assignments K N) -> (0 <= f a)%R /\ (f a <= M)%R) ->
  (forall vs, In vs rs -> mixes K N pos q pi c vs) -> In a (assignments K N) -> rs <> [] ->
  (expv K N pos q rs a (fun p => (average f p - mean K N pi f) * (average f p - mean K N pi f)) <= (M * M * (1 + 2 / c)) / INR (length rs))%R.
Proof.
  intros Hpi Tpi Hc Hc1 Hf Hrs Ha NE.
  assert (PL : (0 < INR (length rs))%R) by (apply lt_0_INR; destruct rs; [congruence|cbn; lia]).
  set (m := mean K N pi f). set (h := fun a => (f a - m)%R).
  assert (M0 : (0 <= m)%R) by (apply total_nonneg; intros; apply Rmult_le_pos; [apply Hpi|apply Hf]; assumption).
  assert (M1 : (m <= M)%R).
  { apply Rle_trans with (total K N (fun a => M * pi a))%R; [|rewrite total_scale, Tpi; lra].
    apply total_le. intros b Hb. rewrite (Rmult_comm M). apply Rmult_le_compat_l; [apply Hpi, Hb|apply Hf, Hb]. }
  assert (Hh : forall a, In a (assignments K N) -> (Rabs (h a) <= M)%R).
  { intros b Hb. unfold h. destruct (Hf b Hb). apply Rabs_le. lra. }
  assert (Ch : total K N (fun a => pi a * h a)%R = 0%R).
  { rewrite (total_ext_in K N _ (fun a => pi a * f a + (- m) * pi a)%R) by (intros; unfold h; ring).
    rewrite total_plus, total_scale, Tpi. change (total K N (fun a => pi a * f a)%R) with m. ring. }
  pose proof (square_bound K N HK pos q pi Hpi Tpi c M Hc h Hh Ch rs Hrs a Ha) as S.
  rewrite (expv_ext K N pos q rs a _ (fun p => (/ (INR (length rs) * INR (length rs))) * (hsum h p * hsum h p))%R).
  - rewrite expv_scale.
    apply Rle_trans with (/ (INR (length rs) * INR (length rs)) * (INR (length rs) * (M * M + 2 * (M * (M / c)))))%R.
    + apply Rmult_le_compat_l; [left; apply Rinv_0_lt_compat, Rmult_lt_0_compat; exact PL|exact S].
    + right. field. lra.
  - intros p L. unfold average. rewrite L.
    assert (E : hsum h p = (rsum (map f p) - INR (length rs) * m)%R).
    { rewrite <- L. unfold hsum, h. clear. induction p as [|x p IH]; [cbn; ring|]. cbn [map rsum length]. rewrite IH, S_INR. ring. }
    rewrite E. field. lra.
Qed.

Lemma positive_min {X} (f : X -> R) l : (forall x, In x l -> (0 < f x)%R) -> exists e, (0 < e)%R /\ (e <= 1)%R /\ forall x, In x l -> (e <= f x)%R.
Proof.
  induction l as [|x l IH]; intros H.
  - exists 1%R. split; [lra|]. split; [lra|]. intros x [].
  - destruct IH as (e & E0 & E1 & E2); [intros; apply H; right; assumption|]. pose proof (H x (or_introl eq_refl)) as P.
    exists (Rmin e (f x)). pose proof (Rmin_l e (f x)). pose proof (Rmin_r e (f x)). split; [apply Rmin_glb_lt; lra|]. split; [lra|].
    intros y [<-|Hy]; [assumption|]. pose proof (E2 y Hy). lra.
Qed.
Lemma pow_small c e : (0 <= c)%R -> (c < 1)%R -> (0 < e)%R -> exists n0, forall n, n0 <= n -> (c ^ n < e)%R.
Proof.
  intros A B E. destruct (pow_lt_1_zero c ltac:(rewrite Rabs_right; lra) e E) as (n0 & H). exists n0. intros n Hn.
  eapply Rle_lt_trans; [apply Rle_abs|]. apply H. lia.
Qed.
