(** * The normaliser of the Dirichlet distribution is convex.

    Proved from the recurrence and the convexity of the logarithm of the gamma
    function alone: drawing [m] balls from an urn writes the normaliser as a sum over
    draws, whose terms are nearly log-linear when [m] is large. *)
From Coq Require Import List Reals ZArith Arith Bool Lra Lia.
From Verif Require Import Base RealModel RealProofs MixModel MixProofs VbModel VbProofs BoundSpec BoundProofs.
Import ListNotations.
Open Scope nat_scope.

Lemma INR_above r : exists m, (r < INR m)%R.
Proof.
  destruct (archimed r) as [A _]. exists (Z.to_nat (up r)). destruct (Z.leb_spec 0 (up r)).
  - rewrite INR_IZR_INZ, Z2Nat.id by assumption. lra.
  - apply Rlt_le_trans with 0%R; [|apply pos_INR]. apply Rlt_trans with (IZR (up r)); [lra|]. apply (IZR_lt _ 0). assumption.
Qed.

(** ** Log-sum-exp of a sum over assignments is convex. *)
Lemma lse_convex (l : list (list nat)) (f h : list nat -> R) s : l <> [] -> (0 <= s <= 1)%R ->
  (ln (rsum (map (fun a => exp ((1 - s) * f a + s * h a)) l)) <=
   (1 - s) * ln (rsum (map (fun a => exp (f a)) l)) + s * ln (rsum (map (fun a => exp (h a)) l)))%R.
Proof.
  intros HL Hs. set (n := length l). assert (Hn : 0 < n) by (unfold n; destruct l; [congruence|cbn; lia]).
  assert (E : forall e : list nat -> R, rsum (map e l) = vsum n (fun i => e (nth i l []))).
  { intros e. unfold vsum. rewrite (list_nth_seq l []) at 1. rewrite map_map. reflexivity. }
  rewrite !E. set (x := fun i => f (nth i l [])). set (y := fun i => h (nth i l [])).
  set (m := fun i => ((1 - s) * x i + s * y i)%R).
  change (ln (vsum n (fun i => exp (m i))) <= (1 - s) * ln (vsum n (fun i => exp (x i))) + s * ln (vsum n (fun i => exp (y i))))%R.
  rewrite <- (gibbs_soft n m Hn). pose proof (soft_proper n m Hn) as Q.
  pose proof (gibbs_lse n (soft n m) x Q) as G1. pose proof (gibbs_lse n (soft n m) y Q) as G2.
  assert (X : vsum n (fun k => soft n m k * (m k - ln (soft n m k)))%R =
          ((1 - s) * vsum n (fun k => soft n m k * (x k - ln (soft n m k))) + s * vsum n (fun k => soft n m k * (y k - ln (soft n m k))))%R).
  { rewrite <- !vsum_scale, <- vsum_plus. apply vsum_ext. intros k _. unfold m at 2. ring. }
  rewrite X. apply Rplus_le_compat; apply Rmult_le_compat_l; lra.
Qed.

(** ** The urn *)
Definition n_of (a : list nat) (i : nat) : R := rsum (map (fun k => if k =? i then 1%R else 0%R) a).
Lemma n_of_nonneg a i : (0 <= n_of a i)%R.
Proof. apply rsum_nonneg. apply Forall_forall. intros x Hx. apply in_map_iff in Hx as (k & <- & _). destruct (_ =? _); lra. Qed.

Section Convex.
  Context (g : R -> R) (G : gamma_like g) (CV : convex g).

  Lemma urn n : 0 < n -> forall m (v : vec), (forall i, i < n -> (0 < v i)%R) ->
    exp (lnB g n v) = total n m (fun a => exp (lnB g n (fun i => v i + n_of a i)%R)).
  Proof.
    intros Hn. induction m as [|m IH]; intros v P.
    - rewrite total_0. f_equal. unfold lnB. rewrite (vsum_ext n (fun i => v i + n_of [] i)%R v) by (intros; unfold n_of; cbn; ring).
      f_equal. apply vsum_ext. intros. f_equal. unfold n_of. cbn. ring.
    - rewrite total_S. assert (PS : (0 < vsum n v)%R) by (apply vsum_pos; assumption).
      transitivity (vsum n (fun k => exp (lnB g n v) * (v k / vsum n v))%R).
      + rewrite vsum_scale. replace (vsum n (fun i => v i / vsum n v)%R) with 1%R; [ring|].
        unfold Rdiv. rewrite vsum_scale_r. symmetry. apply Rinv_r. lra.
      + apply vsum_ext. intros k Hk. set (v' := fun i => (v i + (if k =? i then 1 else 0))%R).
        transitivity (exp (lnB g n v')).
        * rewrite (lnB_bump g G n v v' k Hk P); [|unfold v'; rewrite Nat.eqb_refl; reflexivity|].
          2:{ intros i _ N. unfold v'. rewrite (proj2 (Nat.eqb_neq k i)) by congruence. ring. }
          rewrite exp_plus, exp_ln; [reflexivity|]. apply Rdiv_lt_0_compat; [apply P, Hk|exact PS].
        * rewrite (IH v') by (intros i Hi; unfold v'; specialize (P i Hi); destruct (_ =? _); lra).
          apply total_ext. intros a. f_equal. unfold lnB. rewrite (vsum_ext n (fun i => v' i + n_of a i)%R (fun i => v i + n_of (k :: a) i)%R);
            [f_equal; apply vsum_ext; intros; f_equal|intros]; unfold v', n_of; cbn [map rsum]; ring.
  Qed.

  (** Far out [g] is nearly linear. *)
  Lemma slope_lo x m : (0 <= x)%R -> (1 < m)%R -> (g m + x * ln (m - 1) <= g (m + x))%R.
  Proof.
    intros Hx Hm. destruct Hx as [Hx|<-]; [|rewrite Rplus_0_r; lra].
    assert (E : m = ((1 - / (1 + x)) * (m - 1) + / (1 + x) * (m + x))%R) by (field; lra).
    assert (P : (0 < / (1 + x))%R) by (apply Rinv_0_lt_compat; lra).
    assert (P2 : (/ (1 + x) <= 1)%R) by (rewrite <- Rinv_1; apply Rinv_le_contravar; lra).
    pose proof (CV (m - 1)%R (m + x)%R (/ (1 + x))%R ltac:(lra) ltac:(lra) ltac:(lra)) as H. rewrite <- E in H.
    assert (E2 : g m = (g (m - 1) + ln (m - 1))%R) by (rewrite <- G by lra; f_equal; ring).
    apply (Rmult_le_compat_l (1 + x)) in H; [|lra].
    replace ((1 + x) * ((1 - / (1 + x)) * g (m - 1) + / (1 + x) * g (m + x)))%R with (x * g (m - 1) + g (m + x))%R in H by (field; lra).
    rewrite E2 in *. lra.
  Qed.
  Lemma slope_hi x m : (0 <= x)%R -> (0 < m)%R -> (g (m + x) <= g m + x * ln (m + x))%R.
  Proof.
    intros Hx Hm. destruct Hx as [Hx|<-]; [|rewrite Rplus_0_r; lra].
    assert (P : (0 < / (1 + x))%R) by (apply Rinv_0_lt_compat; lra).
    assert (P2 : (/ (1 + x) <= 1)%R) by (rewrite <- Rinv_1; apply Rinv_le_contravar; lra).
    assert (E : (m + x = (1 - x * / (1 + x)) * m + x * / (1 + x) * (m + x + 1))%R) by (field; lra).
    assert (P3 : (0 <= x * / (1 + x) <= 1)%R).
    { split; [apply Rmult_le_pos; lra|]. apply (Rmult_le_reg_r (1 + x)); [lra|]. rewrite Rmult_assoc, Rinv_l; lra. }
    pose proof (CV m (m + x + 1)%R (x * / (1 + x))%R ltac:(lra) ltac:(lra) P3) as H. rewrite <- E in H.
    rewrite (G (m + x)%R) in H by lra. apply (Rmult_le_compat_l (1 + x)) in H; [|lra].
    replace ((1 + x) * ((1 - x * / (1 + x)) * g m + x * / (1 + x) * (g (m + x) + ln (m + x))))%R
      with (g m + x * (g (m + x) + ln (m + x)))%R in H by (field; lra).
    lra.
  Qed.
  Lemma far V W s m : (0 < V)%R -> (0 < W)%R -> (0 <= s <= 1)%R -> (1 < m)%R ->
    ((1 - s) * g (m + V) + s * g (m + W) - g (m + ((1 - s) * V + s * W)) <= ((1 - s) * V + s * W) * ((V + W + 1) / (m - 1)))%R.
  Proof.
    intros HV HW Hs Hm. set (Z := ((1 - s) * V + s * W)%R).
    assert (0 <= (1 - s) * V)%R by (apply Rmult_le_pos; lra). assert (0 <= s * W)%R by (apply Rmult_le_pos; lra).
    assert (HZ : (0 <= Z)%R) by (unfold Z; lra).
    pose proof (slope_hi V m ltac:(lra) ltac:(lra)) as A. pose proof (slope_hi W m ltac:(lra) ltac:(lra)) as B.
    pose proof (slope_lo Z m HZ Hm) as C.
    assert (LV : (ln (m + V) <= ln (m + V + W))%R) by (destruct (Rle_lt_or_eq_dec 0 W ltac:(lra)); left; apply ln_increasing; lra).
    assert (LW : (ln (m + W) <= ln (m + V + W))%R) by (left; apply ln_increasing; lra).
    assert (R1 : (ln (m + V + W) - ln (m - 1) <= (V + W + 1) / (m - 1))%R).
    { replace (ln (m + V + W) - ln (m - 1))%R with (ln ((m + V + W) / (m - 1)))%R.
      - eapply Rle_trans; [apply ln_le_sub1; apply Rdiv_lt_0_compat; lra|]. right. field. lra.
      - unfold Rdiv. rewrite ln_mult, ln_Rinv; try lra. apply Rinv_0_lt_compat. lra. }
    assert (((1 - s) * (V * ln (m + V)) <= (1 - s) * V * ln (m + V + W))%R) by (rewrite <- Rmult_assoc; apply Rmult_le_compat_l; lra).
    assert ((s * (W * ln (m + W)) <= s * W * ln (m + V + W))%R) by (rewrite <- Rmult_assoc; apply Rmult_le_compat_l; lra).
    assert ((1 - s) * g (m + V) <= (1 - s) * (g m + V * ln (m + V)))%R by (apply Rmult_le_compat_l; lra).
    assert (s * g (m + W) <= s * (g m + W * ln (m + W)))%R by (apply Rmult_le_compat_l; lra).
    assert (Z * (ln (m + V + W) - ln (m - 1)) <= Z * ((V + W + 1) / (m - 1)))%R by (apply Rmult_le_compat_l; lra).
    unfold Z in *. lra.
  Qed.

  Lemma assignments_len n m a : In a (assignments n m) -> length a = m /\ Forall (fun k => k < n) a.
  Proof.
    revert a. induction m as [|m IH]; intros a H; cbn [assignments] in H.
    - destruct H as [<-|[]]. split; [reflexivity|constructor].
    - apply in_flat_map in H as (k & Hk & H). apply in_map_iff in H as (b & <- & H). apply in_seq in Hk. destruct (IH b H) as [L F].
      split; [cbn; lia|constructor; [lia|exact F]].
  Qed.
  Lemma n_of_sum n a : Forall (fun k => k < n) a -> vsum n (n_of a) = INR (length a).
  Proof.
    induction 1 as [|k a Hk F IH]; [apply vsum_0; reflexivity|].
    transitivity (vsum n (fun i => 1 * (if i =? k then 1 else 0) + n_of a i)%R).
    - apply vsum_ext. intros i _. unfold n_of. cbn [map rsum]. rewrite Nat.eqb_sym. ring.
    - rewrite vsum_plus, (vsum_pick n (fun _ => 1%R) k 1%R Hk), IH. cbn [length]. rewrite S_INR. ring.
  Qed.

  Lemma total_le n m f f' : (forall a, In a (assignments n m) -> (f a <= f' a)%R) -> (total n m f <= total n m f')%R.
  Proof.
    unfold total. induction (assignments n m) as [|a l IH]; intros H; cbn [map rsum]; [lra|].
    apply Rplus_le_compat; [apply H; left; reflexivity|]. apply IH. intros; apply H; right; assumption.
  Qed.
  Lemma assignments_nonempty n m : 0 < n -> assignments n m <> [].
  Proof.
    intros Hn E. pose proof (total_pos n m (fun _ => 1%R) Hn ltac:(intros; lra)) as H. unfold total in H. rewrite E in H. cbn in H. lra.
  Qed.

  Lemma lnB_convex_m n (v w : vec) s m : 0 < n -> (forall i, i < n -> (0 < v i)%R) -> (forall i, i < n -> (0 < w i)%R) ->
    (0 <= s <= 1)%R -> 1 < m ->
    (lnB g n (fun i => (1 - s) * v i + s * w i) <= (1 - s) * lnB g n v + s * lnB g n w +
      ((1 - s) * vsum n v + s * vsum n w) * ((vsum n v + vsum n w + 1) / (INR m - 1)))%R.
  Proof.
    intros Hn PV PW Hs Hm. set (z := fun i => ((1 - s) * v i + s * w i)%R). set (V := vsum n v). set (W := vsum n w).
    assert (HV : (0 < V)%R) by (apply vsum_pos; assumption). assert (HW : (0 < W)%R) by (apply vsum_pos; assumption).
    assert (PZ : forall i, i < n -> (0 < z i)%R).
    { intros i Hi. unfold z. specialize (PV i Hi). specialize (PW i Hi).
      assert (0 <= (1 - s) * v i)%R by (apply Rmult_le_pos; lra). assert (0 <= s * w i)%R by (apply Rmult_le_pos; lra).
      destruct (Rle_lt_dec s (1 / 2)).
      - assert (0 < (1 - s) * v i)%R by (apply Rmult_lt_0_compat; lra). lra.
      - assert (0 < s * w i)%R by (apply Rmult_lt_0_compat; lra). lra. }
    assert (EZ : vsum n z = ((1 - s) * V + s * W)%R) by (unfold z; rewrite vsum_plus, !vsum_scale; reflexivity).
    set (c := (((1 - s) * V + s * W) * ((V + W + 1) / (INR m - 1)))%R).
    assert (HM : (1 < INR m)%R) by (apply (lt_INR 1); exact Hm).
    set (F := fun (u : vec) a => lnB g n (fun i => u i + n_of a i)%R).
    assert (U : forall u, (forall i, i < n -> (0 < u i)%R) -> lnB g n u = ln (total n m (fun a => exp (F u a)))).
    { intros u Pu. rewrite <- (ln_exp (lnB g n u)). f_equal. apply urn; assumption. }
    rewrite (U z PZ), (U v PV), (U w PW).
    assert (S : forall u a, In a (assignments n m) -> vsum n (fun i => u i + n_of a i)%R = (INR m + vsum n u)%R).
    { intros u a Ha. destruct (assignments_len _ _ _ Ha) as [L Fa]. rewrite vsum_plus, n_of_sum by exact Fa. rewrite L. ring. }
    assert (X : forall a, In a (assignments n m) -> (F z a <= (1 - s) * F v a + s * F w a + c)%R).
    { intros a Ha. unfold F, lnB. rewrite !(S _ a Ha). fold V W. rewrite EZ.
      pose proof (far V W s (INR m) HV HW Hs HM) as FF. fold c in FF.
      assert (Y : (vsum n (fun i => g (z i + n_of a i)) <= (1 - s) * vsum n (fun i => g (v i + n_of a i)) + s * vsum n (fun i => g (w i + n_of a i)))%R).
      { rewrite <- !vsum_scale, <- vsum_plus. apply vsum_le. intros i Hi. pose proof (n_of_nonneg a i). specialize (PV i Hi). specialize (PW i Hi).
        pose proof (CV (v i + n_of a i)%R (w i + n_of a i)%R s ltac:(lra) ltac:(lra) Hs) as Q.
        replace ((1 - s) * (v i + n_of a i) + s * (w i + n_of a i))%R with (z i + n_of a i)%R in Q by (unfold z; ring). exact Q. }
      lra. }
    pose proof (lse_convex (assignments n m) (F v) (F w) s (assignments_nonempty n m Hn) Hs) as L.
    fold (total n m (fun a => exp (F v a))) in L. fold (total n m (fun a => exp (F w a))) in L.
    fold (total n m (fun a => exp ((1 - s) * F v a + s * F w a))) in L.
    assert (TP : forall f, (0 < total n m (fun a => exp (f a)))%R) by (intros; apply total_pos; [exact Hn|intros; apply exp_pos]).
    assert (Q : (ln (total n m (fun a => exp (F z a))) <= ln (total n m (fun a => exp ((1 - s) * F v a + s * F w a))) + c)%R).
    { rewrite <- (ln_exp c) at 1. rewrite <- ln_mult; [|apply TP|apply exp_pos].
      assert (A : (total n m (fun a => exp (F z a)) <= total n m (fun a => exp ((1 - s) * F v a + s * F w a)) * exp c)%R).
      { replace (total n m (fun a => exp ((1 - s) * F v a + s * F w a)) * exp c)%R with (total n m (fun a => exp ((1 - s) * F v a + s * F w a + c))).
        - apply total_le. intros a Ha. specialize (X a Ha). destruct X as [X|X]; [left; apply exp_increasing, X|right; rewrite X; reflexivity].
        - unfold total. rewrite Rmult_comm, <- rsum_scale, map_map. apply rsum_ext. intros a _. rewrite exp_plus. ring. }
      destruct A as [A|A]; [left; apply ln_increasing; [apply TP|exact A]|right; rewrite A; reflexivity]. }
    lra.
  Qed.

  Lemma lnB_convex n (v w : vec) s : (forall i, i < n -> (0 < v i)%R) -> (forall i, i < n -> (0 < w i)%R) -> (0 <= s <= 1)%R ->
    (lnB g n (fun i => (1 - s) * v i + s * w i) <= (1 - s) * lnB g n v + s * lnB g n w)%R.
  Proof.
    intros PV PW Hs. destruct n as [|n]; [unfold lnB, vsum; cbn [seq map rsum]; right; ring|]. set (N := S n) in *.
    assert (HN : 0 < N) by (unfold N; lia).
    set (c := (((1 - s) * vsum N v + s * vsum N w) * (vsum N v + vsum N w + 1))%R).
    assert (HV : (0 < vsum N v)%R) by (apply vsum_pos; assumption). assert (HW : (0 < vsum N w)%R) by (apply vsum_pos; assumption).
    assert (Hc : (0 <= c)%R).
    { apply Rmult_le_pos; [|lra]. assert (0 <= (1 - s) * vsum N v)%R by (apply Rmult_le_pos; lra).
      assert (0 <= s * vsum N w)%R by (apply Rmult_le_pos; lra). lra. }
    apply Rnot_lt_le. intros H. set (e := (lnB g N (fun i => (1 - s) * v i + s * w i) - ((1 - s) * lnB g N v + s * lnB g N w))%R).
    assert (He : (0 < e)%R) by (unfold e; lra).
    destruct (INR_above (c / e + 2)) as [m Hm].
    assert (0 <= c / e)%R by (apply Rmult_le_pos; [lra|left; apply Rinv_0_lt_compat; lra]).
    assert (1 < m) by (apply INR_lt; cbn; lra).
    pose proof (lnB_convex_m N v w s m HN PV PW Hs H1) as Q.
    assert ((((1 - s) * vsum N v + s * vsum N w) * ((vsum N v + vsum N w + 1) / (INR m - 1)))%R = c / (INR m - 1))%R as E by (unfold c; field; lra).
    rewrite E in Q. assert (c / (INR m - 1) < e)%R; [|unfold e in *; lra].
    apply (Rmult_lt_reg_r (INR m - 1)); [lra|]. unfold Rdiv. rewrite Rmult_assoc, Rinv_l by lra.
    assert (c / e * e = c)%R by (field; lra). assert (c / e * e < (INR m - 1) * e)%R by (apply Rmult_lt_compat_r; lra). lra.
  Qed.

  (** ** The tangent *)
  Context (psi : R -> R) (DV : forall x, (0 < x)%R -> derivable_pt_lim g x (psi x)).
  Lemma along a b : (0 < a)%R -> derivable_pt_lim (fun s => g (a + s * b)) 0 (psi a * b)%R.
  Proof.
    intros Ha. pose proof (DV a Ha) as H. intros e He. destruct (Req_dec b 0) as [->|Hb].
    - exists (mkposreal 1 Rlt_0_1). intros h Hh _. replace (_ - _)%R with 0%R; [rewrite Rabs_R0; exact He|].
      rewrite !Rmult_0_r, Rplus_0_r. field. exact Hh.
    - assert (Pb : (0 < Rabs b)%R) by (apply Rabs_pos_lt, Hb).
      destruct (H (e / Rabs b)%R ltac:(apply Rdiv_lt_0_compat; lra)) as [d Hd].
      assert (Pd : (0 < d / Rabs b)%R) by (apply Rdiv_lt_0_compat; [apply cond_pos|exact Pb]).
      exists (mkposreal _ Pd). intros h Hh Hlt. cbn [pos] in Hlt.
      assert (Hhb : (h * b <> 0)%R) by (apply Rmult_integral_contrapositive_currified; assumption).
      assert (Habs : (Rabs (h * b) < d)%R).
      { rewrite Rabs_mult. apply (Rmult_lt_compat_r (Rabs b)) in Hlt; [|exact Pb]. replace (d / Rabs b * Rabs b)%R with (d : R) in Hlt by (field; lra). exact Hlt. }
      specialize (Hd (h * b)%R Hhb Habs).
      replace ((g (a + (0 + h) * b) - g (a + 0 * b)) / h - psi a * b)%R with (((g (a + h * b) - g a) / (h * b) - psi a) * b)%R.
      + rewrite Rabs_mult. apply (Rmult_lt_compat_r (Rabs b)) in Hd; [|exact Pb]. replace (e / Rabs b * Rabs b)%R with e in Hd by (field; lra). exact Hd.
      + rewrite Rplus_0_l, Rmult_0_l, Rplus_0_r. field. split; assumption.
  Qed.
  Lemma vsum_derivable n (f : nat -> R -> R) (l : vec) x : (forall i, i < n -> derivable_pt_lim (f i) x (l i)) ->
    derivable_pt_lim (fun s => vsum n (fun i => f i s)) x (vsum n l).
  Proof.
    induction n as [|n IH]; intros H; [exact (derivable_pt_lim_const 0%R x)|]. rewrite vsum_S.
    assert (E : forall s, (fun s => vsum n (fun i => f i s) + f n s)%R s = vsum (S n) (fun i => f i s)) by (intros; rewrite vsum_S; reflexivity).
    intros e He. destruct (derivable_pt_lim_plus (fun s => vsum n (fun i => f i s)) (f n) x (vsum n l) (l n)
      ltac:(apply IH; intros; apply H; lia) ltac:(apply H; lia) e He) as [d Hd].
    exists d. intros h Hh Hl. rewrite <- !E. apply (Hd h Hh Hl).
  Qed.

  Theorem log_gamma_convex : dirichlet_convex g psi.
  Proof.
    intros n v w PV PW. destruct n as [|n]; [unfold lnB, vsum; cbn [seq map rsum]; right; ring|]. set (N := S n) in *.
    assert (HV : (0 < vsum N v)%R) by (apply vsum_pos; [unfold N; lia|exact PV]).
    set (phi := fun s => (vsum N (fun i => g (v i + s * (w i - v i))) - g (vsum N v + s * (vsum N w - vsum N v)))%R).
    set (L := vsum N (fun i => (psi (v i) - psi (vsum N v)) * (w i - v i))%R).
    assert (DP : derivable_pt_lim phi 0 L).
    { replace L with (vsum N (fun i => psi (v i) * (w i - v i)) - psi (vsum N v) * (vsum N w - vsum N v))%R.
      - apply derivable_pt_lim_minus; [apply (vsum_derivable N (fun i s => g (v i + s * (w i - v i))%R)); intros i Hi|]; apply along; auto.
      - unfold L. transitivity (vsum N (fun i => psi (v i) * (w i - v i) + (- psi (vsum N v)) * (w i + -1 * v i))%R);
          [rewrite vsum_plus, (vsum_scale N (- psi (vsum N v))%R (fun i => w i + -1 * v i)%R), vsum_plus, vsum_scale; ring|apply vsum_ext; intros; ring]. }
    assert (P0 : phi 0%R = lnB g N v).
    { unfold phi, lnB. rewrite Rmult_0_l, Rplus_0_r. f_equal. apply vsum_ext. intros. f_equal. ring. }
    assert (PC : forall s, (0 <= s <= 1)%R -> (phi s <= (1 - s) * lnB g N v + s * lnB g N w)%R).
    { intros s Hs. pose proof (lnB_convex N v w s PV PW Hs) as H. eapply Rle_trans; [|exact H]. right. unfold phi, lnB. f_equal.
      - apply vsum_ext. intros. f_equal. ring.
      - f_equal. f_equal. rewrite vsum_plus, !vsum_scale. ring. }
    apply Rnot_lt_le. intros H. fold L in H. set (e := (lnB g N v + L - lnB g N w)%R). assert (He : (0 < e)%R) by (unfold e; lra).
    destruct (DP e He) as [d Hd]. set (h := Rmin (d / 2) (1 / 2)).
    assert (Ph : (0 < h)%R) by (apply Rmin_pos; [pose proof (cond_pos d); lra|lra]).
    assert (Hh1 : (h <= 1 / 2)%R) by apply Rmin_r. assert (Hh2 : (h <= d / 2)%R) by apply Rmin_l.
    pose proof (cond_pos d) as Pd. specialize (Hd h ltac:(lra) ltac:(rewrite Rabs_right; lra)).
    rewrite Rplus_0_l, P0 in Hd. specialize (PC h ltac:(lra)).
    assert ((phi h - lnB g N v) / h <= lnB g N w - lnB g N v)%R.
    { apply (Rmult_le_reg_r h); [exact Ph|]. unfold Rdiv. rewrite Rmult_assoc, Rinv_l by lra. lra. }
    apply Rabs_def2 in Hd. unfold e in Hd. lra.
  Qed.
End Convex.
