(** * Lemmas on rounding to doubles. *)
From Coq Require Import List ZArith QArith Qround Qreals Arith Bool Reals Lia Lra.
From Flocq Require Import Core.Core Relative.
From Verif Require Import Base SparseModel DatasetModel PartModel PartProofs SplitModel SplitProofs EvalModel FloatModel.
Import ListNotations.
Open Scope R_scope.

Global Instance dexp_valid : Valid_exp dexp.
Proof. apply FLT_exp_valid. reflexivity. Qed.

(** The unit roundoff. *)
Definition u : R := / 2 * bpow radix2 (-53 + 1).

Lemma u_val : u = / 9007199254740992.
Proof. unfold u. change (-53 + 1)%Z with (-52)%Z. cbn. lra. Qed.

Lemma u_pos : 0 < u. Proof. rewrite u_val. lra. Qed.
Lemma u_small : u < 1 / 1000000. Proof. rewrite u_val. lra. Qed.

Lemma rd_mono x y : x <= y -> rd x <= rd y.
Proof. intros H. apply round_le; [exact dexp_valid|apply valid_rnd_N|exact H]. Qed.

Lemma int_double n : (Z.abs n <= 2 ^ 53)%Z -> is_double (IZR n).
Proof.
  intros H. unfold is_double, dexp. apply generic_format_FLT.
  destruct (Z.eq_dec (Z.abs n) (2 ^ 53)) as [E|E].
  - exists (Float radix2 (n / 2) 1).
    + unfold F2R. cbn [Fnum Fexp]. change (bpow radix2 1) with 2. rewrite <- (mult_IZR _ 2). f_equal.
      assert (n = 2 ^ 53 \/ n = - 2 ^ 53)%Z as [-> | ->] by lia; reflexivity.
    + cbn [Fnum]. assert (n = 2 ^ 53 \/ n = - 2 ^ 53)%Z as [-> | ->] by lia; reflexivity.
    + cbn [Fexp]. lia.
  - exists (Float radix2 n 0).
    + unfold F2R. cbn [Fnum Fexp]. cbn. lra.
    + cbn [Fnum]. change (Z.pow radix2 53) with (2 ^ 53)%Z. lia.
    + cbn [Fexp]. lia.
Qed.

Lemma rd_double x : is_double x -> rd x = x.
Proof. intros H. apply round_generic; [apply valid_rnd_N|exact H]. Qed.

Lemma rd_is_double x : is_double (rd x).
Proof. apply generic_format_round; [exact dexp_valid|apply valid_rnd_N]. Qed.

Lemma rd_int n : (Z.abs n <= 2 ^ 53)%Z -> rd (IZR n) = IZR n.
Proof. intros H. apply rd_double, int_double, H. Qed.

Lemma rd_INR n : (Z.of_nat n <= 2 ^ 53)%Z -> rd (INR n) = INR n.
Proof. intros H. rewrite INR_IZR_INZ. apply rd_int. lia. Qed.

Lemma rd_0 : rd 0 = 0.
Proof. apply (rd_int 0). lia. Qed.
Lemma rd_1 : rd 1 = 1.
Proof. apply (rd_int 1). lia. Qed.

Lemma rd_bounds x a b : (Z.abs a <= 2 ^ 53)%Z -> (Z.abs b <= 2 ^ 53)%Z -> IZR a <= x <= IZR b -> IZR a <= rd x <= IZR b.
Proof.
  intros Ha Hb [H1 H2]. rewrite <- (rd_int a Ha), <- (rd_int b Hb). split; apply rd_mono; assumption.
Qed.

Lemma rd_abs x B : (0 <= B <= 2 ^ 53)%Z -> Rabs x <= IZR B -> Rabs (rd x) <= IZR B.
Proof.
  intros HB H. apply Rabs_le_inv in H. apply Rabs_le. rewrite <- opp_IZR in *.
  apply rd_bounds; [lia|lia|exact H].
Qed.

(** The error is relative, or far below the roundoff. *)
Lemma rd_error x B : Rabs x <= B -> 1 <= B -> Rabs (rd x - x) <= u * B.
Proof.
  intros Hx HB. destruct (error_N_FLT radix2 (-1074) 53 eq_refl (fun z => negb (Z.even z)) x) as (eps & eta & He & Ht & Hz & E).
  unfold rd, dexp. rewrite E. replace (x * (1 + eps) + eta - x) with (x * eps + eta) by ring.
  fold u in He. pose proof u_pos as Hu. destruct (Rmult_integral _ _ Hz) as [-> | ->].
  - rewrite Rmult_0_r, Rplus_0_l. eapply Rle_trans; [exact Ht|].
    assert (bpow radix2 (-1074) <= bpow radix2 (-52)) as Hb by (apply bpow_le; lia).
    apply Rle_trans with (u * 1); [unfold u; change (-53 + 1)%Z with (-52)%Z; lra|].
    apply Rmult_le_compat_l; lra.
  - rewrite Rplus_0_r, Rabs_mult, Rmult_comm. apply Rmult_le_compat; [apply Rabs_pos|apply Rabs_pos|exact He|exact Hx].
Qed.

(** Relative error, away from the subnormal numbers. *)
Lemma rd_relative x : bpow radix2 (-1022) <= Rabs x -> Rabs (rd x - x) <= u * Rabs x.
Proof. intros H. apply (relative_error_N_FLT radix2 (-1074) 53); [reflexivity|exact H]. Qed.

(** ** Fold sizes *)
Lemma ceil_div_exact D n : (0 <= D < 2 ^ 53)%Z -> (0 < n <= 2 ^ 53)%Z -> ceil_div_f D n = ceil_div D n.
Proof.
  intros HD Hn. unfold ceil_div_f.
  assert (Hn' : 0 < IZR n) by (apply (IZR_lt 0); lia).
  pose proof (ceil_div_spec D n ltac:(lia)) as [Hl Hh]. set (c := ceil_div D n) in *.
  assert (Hc : (0 <= c <= 2 ^ 53)%Z) by nia.
  assert (Hu : IZR D / IZR n <= IZR c).
  { apply Rmult_le_reg_r with (IZR n); [exact Hn'|]. unfold Rdiv. rewrite Rmult_assoc, Rinv_l, Rmult_1_r by lra.
    rewrite <- mult_IZR. apply IZR_le. lia. }
  assert (Hup : rd (IZR D / IZR n) <= IZR c) by (rewrite <- (rd_int c) by lia; apply rd_mono, Hu).
  apply Zceil_imp. split; [|exact Hup].
  destruct (Z.eq_dec D 0) as [->|HD0].
  { assert (c = 0)%Z as -> by nia. unfold Rdiv. rewrite Rmult_0_l, rd_0. apply IZR_lt. lia. }
  assert (Hx : 0 < IZR D / IZR n) by (apply Rdiv_lt_0_compat; [apply (IZR_lt 0); lia|exact Hn']).
  assert (Hnorm : bpow radix2 (-1022) <= Rabs (IZR D / IZR n)).
  { rewrite Rabs_pos_eq by lra. apply Rle_trans with (bpow radix2 (-53)); [apply bpow_le; lia|].
    change (bpow radix2 (-53)) with (/ 9007199254740992).
    apply Rmult_le_reg_r with (IZR n); [exact Hn'|]. unfold Rdiv. rewrite Rmult_assoc, Rinv_l, Rmult_1_r by lra.
    assert (1 <= IZR D) by (apply (IZR_le 1); lia). assert (IZR n <= 9007199254740992) by (apply (IZR_le n 9007199254740992); lia). lra. }
  pose proof (rd_relative _ Hnorm) as He. rewrite (Rabs_pos_eq (IZR D / IZR n)) in He by lra.
  assert (Hd : IZR D / IZR n - IZR (c - 1) >= / IZR n).
  { apply Rle_ge. apply Rmult_le_reg_r with (IZR n); [exact Hn'|]. rewrite Rinv_l by lra.
    unfold Rdiv. rewrite Rmult_minus_distr_r, Rmult_assoc, Rinv_l, Rmult_1_r by lra.
    rewrite <- mult_IZR, <- minus_IZR. apply (IZR_le 1). nia. }
  assert (Hs : u * (IZR D / IZR n) < / IZR n).
  { rewrite u_val. unfold Rdiv. rewrite <- Rmult_assoc. rewrite <- (Rmult_1_l (/ IZR n)) at 2.
    apply Rmult_lt_compat_r; [apply Rinv_0_lt_compat, Hn'|].
    assert (IZR D < 9007199254740992) by (apply (IZR_lt D 9007199254740992); lia). lra. }
  apply Rabs_le_inv in He. lra.
Qed.

Lemma split_indices_exact D f n : (0 <= D < 2 ^ 53)%Z -> (n <= 2 ^ 53)%Z ->
  cross_valid_split_indices_f D f n = cross_valid_split_indices D f n.
Proof.
  intros HD Hn. unfold cross_valid_split_indices_f, cross_valid_split_indices, assert_.
  destruct (f <? n)%Z; cbn [bind]; [|reflexivity]. destruct (Z.ltb_spec 1 n); cbn [bind]; [|reflexivity].
  rewrite ceil_div_exact by lia. reflexivity.
Qed.

(** ** Document completion *)

(** Every double is a rational number. *)
Lemma double_rational x : is_double x -> exists q : Q, Q2R q = x.
Proof.
  intros H. rewrite H. unfold F2R. cbn [Fnum Fexp]. set (m := Ztrunc _). set (e := cexp _ _ _). clearbody m e. clear H.
  destruct e as [|p|p].
  - exists (inject_Z m). unfold Q2R, inject_Z. cbn. lra.
  - exists (inject_Z (m * Z.pow_pos 2 p)). unfold Q2R, inject_Z. cbn [Qnum Qden bpow]. rewrite mult_IZR.
    change (Z.pow_pos radix2 p) with (Z.pow_pos 2 p). lra.
  - exists (m # Pos.pow 2 p)%Q. unfold Q2R. cbn [Qnum Qden bpow]. f_equal. f_equal.
    change (Z.pow_pos radix2 p) with (Z.pow_pos 2 p). rewrite <- Pos2Z.inj_pow_pos. reflexivity.
Qed.

Lemma Qfloor_Zfloor q : Zfloor (Q2R q) = Qfloor q.
Proof.
  apply Zfloor_imp. pose proof (Qfloor_le q) as H1. pose proof (Qlt_floor q) as H2.
  apply Qle_Rle in H1. apply Qlt_Rlt in H2. unfold Q2R at 1 in H1. unfold Q2R at 2 in H2.
  unfold inject_Z in *. cbn [Qnum Qden] in *. rewrite Rinv_1, Rmult_1_r in *. split; assumption.
Qed.

Lemma Q2R_inject z : Q2R (inject_Z z) = IZR z.
Proof. unfold Q2R, inject_Z. cbn. lra. Qed.

Lemma around_nearest q : ZnearestE (Q2R q) = around q.
Proof.
  unfold Znearest, around. rewrite Qfloor_Zfloor. set (f := Qfloor q).
  pose proof (Qfloor_le q) as H1. pose proof (Qlt_floor q) as H2. fold f in H1, H2.
  assert (Hd : Q2R q - IZR f = Q2R (q - inject_Z f)) by (rewrite Q2R_minus, Q2R_inject; reflexivity).
  rewrite Hd. assert (Hh : / 2 = Q2R (1 # 2)) by (unfold Q2R; cbn; lra). rewrite Hh.
  destruct (Qcompare_spec (q - inject_Z f) (1 # 2)) as [E|E|E].
  - rewrite Rcompare_Eq by (apply Qeq_eqR; exact E).
    assert (Zceil (Q2R q) = (f + 1)%Z) as Hc.
    { apply Zceil_imp. replace (f + 1 - 1)%Z with f by lia. apply Qeq_eqR in E. rewrite <- Hd, <- Hh in E.
      rewrite plus_IZR. lra. }
    rewrite Hc. destruct (Z.even f); reflexivity.
  - rewrite Rcompare_Lt by (apply Qlt_Rlt; exact E). reflexivity.
  - rewrite Rcompare_Gt by (apply Qlt_Rlt; exact E).
    apply Zceil_imp. replace (f + 1 - 1)%Z with f by lia. apply Qlt_Rlt in E, H2. rewrite <- Hd, <- Hh in E.
    rewrite Q2R_inject in H2. lra.
Qed.

Lemma around_comp a b : (a == b)%Q -> around a = around b.
Proof. intros H. rewrite <- !around_nearest. f_equal. apply Qeq_eqR, H. Qed.

Lemma nearest_bound x B : Rabs x <= IZR B -> (Z.abs (ZnearestE x) <= B)%Z.
Proof.
  intros H. apply Rabs_le_inv in H as [H1 H2].
  assert (ZnearestE (IZR (- B)) <= ZnearestE x)%Z by (apply (@Zrnd_le _ (valid_rnd_N (fun z => negb (Z.even z)))); rewrite opp_IZR; exact H1).
  assert (ZnearestE x <= ZnearestE (IZR B))%Z by (apply (@Zrnd_le _ (valid_rnd_N (fun z => negb (Z.even z)))); exact H2).
  rewrite (@Zrnd_IZR _ (valid_rnd_N (fun z => negb (Z.even z)))) in *. lia.
Qed.

Lemma completion_count_exact p j dat : (Z.abs dat <= 2 ^ 51)%Z -> Rabs j <= IZR (2 ^ 51) -> (0 <= p <= 1)%Q ->
  exists j', complete_count p j' dat = complete_count_f (Q2R p) j dat.
Proof.
  intros Hd Hj Hp. unfold complete_count_f.
  assert (Hpr : 0 <= Q2R p <= 1).
  { destruct Hp as [P1 P2]. apply Qle_Rle in P1, P2. unfold Q2R in P1 at 1. unfold Q2R in P2 at 2. cbn in P1, P2. lra. }
  assert (Hdr : Rabs (IZR dat) <= IZR (2 ^ 51)) by (rewrite <- abs_IZR; apply IZR_le; exact Hd).
  assert (He : Rabs (rd (IZR dat + j)) <= IZR (2 ^ 52)).
  { apply rd_abs; [lia|].
    eapply Rle_trans; [apply Rabs_triang|]. change (2 ^ 52)%Z with (2 ^ 51 + 2 ^ 51)%Z. rewrite plus_IZR. lra. }
  assert (Hm : Rabs (rd (rd (IZR dat + j) * Q2R p)) <= IZR (2 ^ 52)).
  { apply rd_abs; [lia|].
    rewrite Rabs_mult, (Rabs_pos_eq (Q2R p)) by lra. pose proof (Rabs_pos (rd (IZR dat + j))). nra. }
  destruct (double_rational _ (rd_is_double (rd (IZR dat + j) * Q2R p))) as (y & Hy).
  set (est := ZnearestE (rd (rd (IZR dat + j) * Q2R p))).
  assert (Hb : (Z.abs est <= 2 ^ 52)%Z) by (apply nearest_bound; exact Hm).
  assert (Ztrunc (rd (IZR dat - IZR est)) = (dat - est)%Z) as ->.
  { rewrite <- minus_IZR, rd_int by lia. apply Ztrunc_IZR. }
  assert (Hest : est = around y) by (unfold est; rewrite <- Hy; apply around_nearest).
  destruct (Qeq_dec p 0) as [P0|P0].
  - exists 0%Q. unfold complete_count. assert (around ((inject_Z dat + 0) * p) = est) as ->; [|reflexivity].
    rewrite Hest. apply around_comp. rewrite P0, Qmult_0_r. symmetry. apply eqR_Qeq. rewrite Hy.
    rewrite (Qeq_eqR _ _ P0). replace (Q2R 0) with 0 by (unfold Q2R; cbn; lra). rewrite Rmult_0_r. apply rd_0.
  - exists (y / p - inject_Z dat)%Q. unfold complete_count.
    assert (around ((inject_Z dat + (y / p - inject_Z dat)) * p) = est) as ->; [|reflexivity].
    rewrite Hest. apply around_comp. field. exact P0.
Qed.

(** Every run in doubles is one in exact arithmetic, with another jitter. *)
Lemma complete_row_later p jit jit' : forall r k, (forall i, (k <= i)%nat -> jit i = jit' i) ->
  complete_row p jit k r = complete_row p jit' k r.
Proof.
  induction r as [|[c v] r IH]; intros k H; cbn [complete_row]; [reflexivity|].
  rewrite (H k) by lia. rewrite (IH (S k)) by (intros; apply H; lia). reflexivity.
Qed.

Lemma complete_rows_later p jit jit' : forall rs k, (forall i, (k <= i)%nat -> jit i = jit' i) ->
  complete_rows_from p jit k rs = complete_rows_from p jit' k rs.
Proof.
  induction rs as [|r rs IH]; intros k H; cbn [complete_rows_from]; [reflexivity|].
  rewrite (complete_row_later p jit jit') by exact H. rewrite (IH (k + length r)%nat) by (intros; apply H; lia). reflexivity.
Qed.

Lemma complete_row_exact p j : (0 <= p <= 1)%Q -> (forall i, Rabs (j i) <= IZR (2 ^ 51)) -> forall r k (tail : nat -> Q),
  (forall c v, In (c, v) r -> (Z.abs v <= 2 ^ 51)%Z) ->
  exists jit, complete_row p jit k r = complete_row_f (Q2R p) j k r /\ forall i, (k + length r <= i)%nat -> jit i = tail i.
Proof.
  intros Hp Hj. induction r as [|[c v] r IH]; intros k tail Hr; [exists tail; split; [reflexivity|auto]|].
  destruct (IH (S k) tail) as (jit & E & HT); [intros c' v' Hin; eapply Hr; right; exact Hin|].
  destruct (completion_count_exact p (j k) v) as (j' & Ej); [eapply Hr; left; reflexivity|apply Hj|exact Hp|].
  exists (fun i => if (i =? k)%nat then j' else jit i). split.
  - cbn [complete_row complete_row_f]. rewrite Nat.eqb_refl, Ej.
    rewrite (complete_row_later p _ jit); [rewrite E; reflexivity|].
    intros i Hi. destruct (Nat.eqb_spec i k); [lia|reflexivity].
  - intros i Hi. cbn [length] in Hi. destruct (Nat.eqb_spec i k); [lia|]. apply HT. lia.
Qed.

Lemma complete_rows_exact p j : (0 <= p <= 1)%Q -> (forall i, Rabs (j i) <= IZR (2 ^ 51)) -> forall rs k,
  (forall r c v, In r rs -> In (c, v) r -> (Z.abs v <= 2 ^ 51)%Z) ->
  exists jit, complete_rows_from p jit k rs = complete_rows_from_f (Q2R p) j k rs.
Proof.
  intros Hp Hj. induction rs as [|r rs IH]; intros k Hr; [exists (fun _ => 0%Q); reflexivity|].
  destruct (IH (k + length r)%nat) as (tail & E); [intros r' c v Hin; eapply Hr; right; exact Hin|].
  destruct (complete_row_exact p j Hp Hj r k tail) as (jit & Er & HT); [intros c v; eapply Hr; left; reflexivity|].
  exists jit. cbn [complete_rows_from complete_rows_from_f]. rewrite Er.
  rewrite (complete_rows_later p jit tail) by exact HT. rewrite E. reflexivity.
Qed.

(** ** Means of fractions *)
Definition rsum (l : list R) : R := fold_right Rplus 0 l.

Definition near (delta : R) (x y : R) : Prop := 0 <= x <= 1 /\ Rabs (x - y) <= delta.

Lemma fsum_from delta : forall xs ys, Forall2 (near delta) xs ys -> forall k s t e,
  (Z.of_nat (k + length xs) <= 2 ^ 53)%Z -> (1 <= k + length xs)%nat -> 0 <= s <= INR k -> Rabs (s - t) <= e ->
  0 <= fold_left (fun s x => rd (s + x)) xs s <= INR (k + length xs) /\
  Rabs (fold_left (fun s x => rd (s + x)) xs s - (t + rsum ys)) <= e + INR (length xs) * (delta + u * INR (k + length xs)).
Proof.
  induction 1 as [|x y xs ys [Hx Hxy] HF IH]; intros k s t e Hk H1 Hs He.
  - cbn [fold_left length rsum fold_right]. rewrite Nat.add_0_r, Rplus_0_r, Rmult_0_l, Rplus_0_r. split; assumption.
  - cbn [length] in Hk, H1. cbn [fold_left rsum fold_right length].
    assert (Hk' : INR (S k) = INR k + 1) by apply S_INR.
    assert (Hsx : 0 <= rd (s + x) <= INR (S k)).
    { rewrite INR_IZR_INZ. apply (rd_bounds (s + x) 0 (Z.of_nat (S k))); [lia|lia|]. rewrite <- INR_IZR_INZ. lra. }
    assert (Hle : INR (S k) <= INR (S k + length xs)) by (apply le_INR; lia).
    assert (H0k : 0 <= INR k) by apply pos_INR.
    assert (Herr : Rabs (rd (s + x) - (s + x)) <= u * INR (S k + length xs)).
    { apply rd_error; [rewrite Rabs_pos_eq by lra; lra|lra]. }
    assert (He' : Rabs (rd (s + x) - (t + y)) <= e + (delta + u * INR (S k + length xs))).
    { replace (rd (s + x) - (t + y)) with ((rd (s + x) - (s + x)) + ((s - t) + (x - y))) by ring.
      eapply Rle_trans; [apply Rabs_triang|]. pose proof (Rabs_triang (s - t) (x - y)). lra. }
    destruct (IH (S k) (rd (s + x)) (t + y) _ ltac:(lia) ltac:(lia) Hsx He') as [G1 G2].
    replace (k + S (length xs))%nat with (S k + length xs)%nat by lia. split; [exact G1|].
    replace (t + (y + fold_right Rplus 0 ys)) with (t + y + rsum ys) by (unfold rsum; ring).
    eapply Rle_trans; [exact G2|]. rewrite (S_INR (length xs)). lra.
Qed.

(** The sum of at most N fractions divided by N. *)
Lemma fmean delta xs ys N : Forall2 (near delta) xs ys -> (length xs <= N)%nat -> (1 <= N)%nat -> (Z.of_nat N <= 2 ^ 53)%Z -> 0 <= delta ->
  0 <= rd (fsum xs / INR N) <= 1 /\
  Rabs (rd (fsum xs / INR N) - rsum ys / INR N) <= delta + (INR N + 1) * u.
Proof.
  intros HF Hl HN Hb Hdl. pose proof u_pos as Hu.
  assert (HN' : 1 <= INR N) by (apply (le_INR 1); exact HN).
  assert (Hl' : INR (length xs) <= INR N) by (apply le_INR; exact Hl).
  assert (H0l : 0 <= INR (length xs)) by apply pos_INR.
  assert (HS : 0 <= fsum xs <= INR N /\ Rabs (fsum xs - rsum ys) <= INR (length xs) * (delta + u * INR N)).
  { destruct xs as [|x xs].
    - inversion HF; subst. unfold fsum, rsum. cbn [fold_left fold_right length]. split; [lra|].
      rewrite Rminus_0_r, Rabs_R0. cbn [INR]. lra.
    - destruct (fsum_from delta _ _ HF 0%nat 0 0 0) as [G1 G2]; [cbn [length Nat.add] in *; lia|cbn [length Nat.add]; lia|cbn; lra|rewrite Rminus_0_r, Rabs_R0; lra|].
      cbn [Nat.add] in G1, G2. fold (fsum (x :: xs)) in G1, G2. rewrite !Rplus_0_l in G2. split; [lra|].
      eapply Rle_trans; [exact G2|]. apply Rmult_le_compat_l; [exact H0l|].
      apply Rplus_le_compat_l, Rmult_le_compat_l; lra. }
  destruct HS as [[S1 S2] S3].
  assert (Hq : 0 <= fsum xs / INR N <= 1).
  { split; [apply Rmult_le_pos; [lra|left; apply Rinv_0_lt_compat; lra]|]. apply Rmult_le_reg_r with (INR N); [lra|].
    unfold Rdiv. rewrite Rmult_assoc, Rinv_l by lra. lra. }
  split; [apply (rd_bounds _ 0 1); [lia|lia|exact Hq]|].
  assert (E1 : Rabs (rd (fsum xs / INR N) - fsum xs / INR N) <= u * 1) by (apply rd_error; [rewrite Rabs_pos_eq by lra; lra|lra]).
  assert (E2 : Rabs (fsum xs / INR N - rsum ys / INR N) <= delta + u * INR N).
  { replace (fsum xs / INR N - rsum ys / INR N) with ((fsum xs - rsum ys) * / INR N) by (unfold Rdiv; ring).
    rewrite Rabs_mult, (Rabs_pos_eq (/ INR N)) by (left; apply Rinv_0_lt_compat; lra).
    apply Rmult_le_reg_r with (INR N); [lra|]. rewrite Rmult_assoc, Rinv_l, Rmult_1_r by lra.
    eapply Rle_trans; [exact S3|]. rewrite (Rmult_comm (delta + u * INR N) (INR N)). apply Rmult_le_compat_r; [|exact Hl'].
    pose proof (Rmult_le_pos u (INR N)). lra. }
  replace (rd (fsum xs / INR N) - rsum ys / INR N) with
    ((rd (fsum xs / INR N) - fsum xs / INR N) + (fsum xs / INR N - rsum ys / INR N)) by ring.
  eapply Rle_trans; [apply Rabs_triang|]. lra.
Qed.

(** The mean of ones is one. *)
Lemma fsum_ones : forall n k, (Z.of_nat (k + n) <= 2 ^ 53)%Z ->
  fold_left (fun s x => rd (s + x)) (repeat 1 n) (INR k) = INR (k + n).
Proof.
  induction n as [|n IH]; intros k H; cbn [repeat fold_left]; [rewrite Nat.add_0_r; reflexivity|].
  replace (INR k + 1) with (INR (S k)) by apply S_INR. rewrite rd_INR by lia. rewrite IH by lia. f_equal. lia.
Qed.

Lemma fmean_ones n : (1 <= n)%nat -> (Z.of_nat n <= 2 ^ 53)%Z -> rd (fsum (repeat 1 n) / INR n) = 1.
Proof.
  intros Hn H. unfold fsum. change 0 with (INR 0) at 1. rewrite fsum_ones by (cbn; lia). cbn [Nat.add].
  assert (1 <= INR n) by (apply (le_INR 1); exact Hn). unfold Rdiv. rewrite Rinv_r by lra. apply rd_1.
Qed.
