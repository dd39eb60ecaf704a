From Coq Require Import List ZArith Lia Permutation Bool.
From Verif Require Import Base SplitModel.
Import ListNotations.
Open Scope Z_scope.

Lemma ceil_div_spec a b : 0 < b -> b * (ceil_div a b - 1) < a <= b * ceil_div a b.
Proof. intros Hb. unfold ceil_div. pose proof (Z.div_mod (-a) b). pose proof (Z.mod_pos_bound (-a) b). nia. Qed.

Lemma ceil_div_divides a b : 0 < b -> (b | a) -> b * ceil_div a b = a.
Proof.
  intros Hb (k & ->). pose proof (ceil_div_spec (k * b) b Hb) as H.
  set (c := ceil_div (k * b) b) in *.
  assert (c - 1 < k) by nia. assert (k <= c) by nia. nia.
Qed.

Lemma query_size_bounds D n : 1 <= D -> 1 < n -> 1 <= ceil_div D n <= D.
Proof. intros. pose proof (ceil_div_spec D n ltac:(lia)). split; nia. Qed.

(** A window of [D] consecutive integers hits every residue once. *)
Lemma window_mod_perm D s : 1 <= D ->
  Permutation (map (fun i => i mod D) (zrange s (s + D))) (zrange 0 D).
Proof.
  intros HD. apply NoDup_Permutation_bis.
  - assert (G : forall l, (forall x, In x l -> s <= x < s + D) -> NoDup l ->
                 NoDup (map (fun i => i mod D) l)).
    { induction l as [|a l IH]; intros Hin Hnd; simpl; [constructor|].
      inversion Hnd; subst. constructor.
      - rewrite in_map_iff. intros (x & Hx & Hxl).
        assert (x = a); [|subst; contradiction].
        pose proof (Hin a (or_introl eq_refl)). pose proof (Hin x (or_intror Hxl)).
        pose proof (Z.div_mod x D ltac:(lia)). pose proof (Z.div_mod a D ltac:(lia)).
        rewrite Hx in *.
        assert (x / D = a / D) by (assert (-D < D * (x / D - a / D) < D) by nia; nia).
        nia.
      - apply IH; auto. intros; apply Hin; right; auto. }
    apply G; [|apply zrange_NoDup]. intros x Hx. apply in_zrange in Hx. lia.
  - rewrite map_length, !zrange_length. apply Nat.eq_le_incl. f_equal. lia.
  - intros x Hx. apply in_map_iff in Hx as (y & <- & _). apply in_zrange.
    pose proof (Z.mod_pos_bound y D). lia.
Qed.

Lemma split_ok D f n tr qu :
  cross_valid_split_indices D f n = Ok (tr, qu) <->
  f < n /\ 1 < n /\
  qu = map (fun i => i mod D) (zrange (ceil_div D n * f) (ceil_div D n * f + ceil_div D n)) /\
  tr = map (fun i => i mod D)
        (zrange (ceil_div D n * f + ceil_div D n) (ceil_div D n * f + D)).
Proof.
  unfold cross_valid_split_indices, assert_.
  destruct (Z.ltb_spec f n); simpl; [|split; [discriminate | intuition lia]].
  destruct (Z.ltb_spec 1 n); simpl; [|split; [discriminate | intuition lia]].
  replace (ceil_div D n * f + ceil_div D n + (D - ceil_div D n)) with (ceil_div D n * f + D) by lia.
  split.
  - intros [= <- <-]. auto.
  - intros (_ & _ & -> & ->). reflexivity.
Qed.

Lemma split_partition D f n tr qu : 1 <= D ->
  cross_valid_split_indices D f n = Ok (tr, qu) ->
  Permutation (tr ++ qu) (zrange 0 D).
Proof.
  intros HD H. apply split_ok in H as (Hf & Hn & -> & ->).
  pose proof (query_size_bounds D n HD Hn).
  rewrite Permutation_app_comm, <- map_app, zrange_app by lia.
  apply window_mod_perm; assumption.
Qed.

Lemma split_total D f n : f < n -> 1 < n ->
  exists tr qu, cross_valid_split_indices D f n = Ok (tr, qu).
Proof.
  intros Hf Hn. eexists _, _. apply split_ok. auto.
Qed.

Lemma split_query_length D f n tr qu : 1 <= D ->
  cross_valid_split_indices D f n = Ok (tr, qu) ->
  Z.of_nat (length qu) = ceil_div D n /\ Z.of_nat (length tr) = D - ceil_div D n.
Proof.
  intros HD H. apply split_ok in H as (Hf & Hn & -> & ->).
  pose proof (query_size_bounds D n HD Hn).
  rewrite !map_length, !zrange_length. lia.
Qed.

(** membership in a query fold *)
Lemma in_query_iff D f n tr qu d : 1 <= D -> 0 <= d < D ->
  cross_valid_split_indices D f n = Ok (tr, qu) ->
  (In d qu <-> exists k, ceil_div D n * f <= d + k * D < ceil_div D n * f + ceil_div D n).
Proof.
  intros HD Hd H. apply split_ok in H as (Hf & Hn & -> & ->).
  rewrite in_map_iff. split.
  - intros (x & <- & Hx). apply in_zrange in Hx. exists (x / D).
    pose proof (Z.div_mod x D ltac:(lia)). lia.
  - intros (k & Hk). exists (d + k * D). split.
    + rewrite Z_mod_plus_full. apply Z.mod_small. lia.
    + apply in_zrange. lia.
Qed.

Lemma query_cover D n d : 1 <= D -> 1 < n -> 0 <= d < D ->
  exists f tr qu, 0 <= f < n /\ cross_valid_split_indices D f n = Ok (tr, qu) /\ In d qu.
Proof.
  intros HD Hn Hd.
  pose proof (query_size_bounds D n HD Hn) as Hq.
  pose proof (ceil_div_spec D n ltac:(lia)) as Hc.
  set (q := ceil_div D n) in *.
  exists (d / q).
  assert (Hf : 0 <= d / q < n).
  { split; [apply Z.div_pos; lia | apply Z.div_lt_upper_bound; nia]. }
  destruct (split_total D (d / q) n ltac:(lia) Hn) as (tr & qu & E).
  exists tr, qu. repeat split; try lia; auto.
  apply (in_query_iff D _ n tr qu d HD Hd E). exists 0. fold q.
  pose proof (Z.div_mod d q ltac:(lia)). pose proof (Z.mod_pos_bound d q). lia.
Qed.

Lemma query_unique D n d f1 f2 tr1 qu1 tr2 qu2 :
  1 <= D -> (n | D) -> 0 <= d < D -> 0 <= f1 -> 0 <= f2 ->
  cross_valid_split_indices D f1 n = Ok (tr1, qu1) ->
  cross_valid_split_indices D f2 n = Ok (tr2, qu2) ->
  In d qu1 -> In d qu2 -> f1 = f2.
Proof.
  intros HD Hdiv Hd H1 H2 E1 E2 I1 I2.
  apply (in_query_iff D _ _ _ _ d HD Hd E1) in I1 as (k1 & I1).
  apply (in_query_iff D _ _ _ _ d HD Hd E2) in I2 as (k2 & I2).
  apply split_ok in E1 as (L1 & Hn & _ & _). apply split_ok in E2 as (L2 & _ & _ & _).
  pose proof (ceil_div_divides D n ltac:(lia) Hdiv) as Hq.
  pose proof (query_size_bounds D n HD Hn) as Hqb.
  set (q := ceil_div D n) in *.
  assert (q * f1 + q <= D) by nia. assert (q * f2 + q <= D) by nia.
  assert (k1 = 0) by nia. assert (k2 = 0) by nia. subst k1 k2.
  assert (-1 < f1 - f2 < 1) by nia. lia.
Qed.

Lemma overlap_if_not_dividing D n : 1 <= D -> 1 < n -> ~ (n | D) ->
  exists f, 0 < f < n /\
    exists tr0 qu0 tr qu,
      cross_valid_split_indices D 0 n = Ok (tr0, qu0) /\
      cross_valid_split_indices D f n = Ok (tr, qu) /\ In 0 qu0 /\ In 0 qu.
Proof.
  intros HD Hn Hnd.
  pose proof (query_size_bounds D n HD Hn) as Hq.
  pose proof (ceil_div_spec D n ltac:(lia)) as Hc.
  set (q := ceil_div D n) in *.
  assert (Hlt : D < n * q).
  { destruct (Z.eq_dec D (n * q)) as [E|]; [|lia]. exfalso. apply Hnd. exists q. lia. }
  exists (D / q).
  assert (Hf : 0 < D / q < n).
  { split; [apply Z.div_str_pos; lia | apply Z.div_lt_upper_bound; lia]. }
  split; [exact Hf|].
  destruct (split_total D 0 n ltac:(lia) Hn) as (tr0 & qu0 & E0).
  destruct (split_total D (D / q) n ltac:(lia) Hn) as (tr & qu & E).
  exists tr0, qu0, tr, qu. repeat split; auto.
  - apply (in_query_iff D _ _ _ _ 0 HD ltac:(lia) E0). exists 0. fold q. lia.
  - apply (in_query_iff D _ _ _ _ 0 HD ltac:(lia) E). exists 1. fold q.
    pose proof (Z.div_mod D q ltac:(lia)). pose proof (Z.mod_pos_bound D q). lia.
Qed.

Lemma query_three D n d f1 f2 f3 tr1 qu1 tr2 qu2 tr3 qu3 :
  1 <= D -> n <= D -> 0 <= d < D -> 0 <= f1 -> 0 <= f2 -> 0 <= f3 ->
  cross_valid_split_indices D f1 n = Ok (tr1, qu1) ->
  cross_valid_split_indices D f2 n = Ok (tr2, qu2) ->
  cross_valid_split_indices D f3 n = Ok (tr3, qu3) ->
  In d qu1 -> In d qu2 -> In d qu3 -> f1 = f2 \/ f1 = f3 \/ f2 = f3.
Proof.
  intros HD HnD Hd H1 H2 H3 E1 E2 E3 I1 I2 I3.
  apply (in_query_iff D _ _ _ _ d HD Hd E1) in I1 as (k1 & I1).
  apply (in_query_iff D _ _ _ _ d HD Hd E2) in I2 as (k2 & I2).
  apply (in_query_iff D _ _ _ _ d HD Hd E3) in I3 as (k3 & I3).
  apply split_ok in E1 as (L1 & Hn & _ & _). apply split_ok in E2 as (L2 & _ & _ & _).
  apply split_ok in E3 as (L3 & _ & _ & _).
  pose proof (query_size_bounds D n HD Hn) as Hqb.
  pose proof (ceil_div_spec D n ltac:(lia)) as Hc.
  set (q := ceil_div D n) in *.
  assert (HB : n * q < 2 * D) by nia.
  assert (K : forall f k, 0 <= f -> f < n -> q * f <= d + k * D < q * f + q -> k = 0 \/ k = 1).
  { intros f k F0 Fn Fk. assert (q * f + q <= n * q) by nia.
    assert (-1 < k) by nia. assert (k < 2) by nia. lia. }
  assert (U : forall f g k, q * f <= d + k * D < q * f + q -> q * g <= d + k * D < q * g + q -> f = g).
  { intros f g k A B. assert (-1 < f - g < 1) by nia. lia. }
  pose proof (K _ _ H1 L1 I1). pose proof (K _ _ H2 L2 I2). pose proof (K _ _ H3 L3 I3).
  assert (k1 = k2 \/ k1 = k3 \/ k2 = k3) as HK by lia.
  destruct HK as [E | [E | E]]; subst; eauto.
Qed.

(** ** Derived forms used in the statements *)

(** Document [d] is among the query documents of fold [f]. *)
Definition queried_by (D n f d : Z) : Prop :=
  exists tr qu, cross_valid_split_indices D f n = Ok (tr, qu) /\ In d qu.

Lemma queried_at_most_two D n d fs : 1 <= D -> n <= D -> 0 <= d < D ->
  NoDup fs -> Forall (fun f => 0 <= f /\ queried_by D n f d) fs -> (length fs <= 2)%nat.
Proof.
  intros HD HnD Hd Hnd HF.
  destruct fs as [|a [|b [|c fs]]]; simpl; try lia. exfalso.
  inversion HF as [|? ? (A0 & tr1 & qu1 & E1 & I1) HF1]; subst.
  inversion HF1 as [|? ? (B0 & tr2 & qu2 & E2 & I2) HF2]; subst.
  inversion HF2 as [|? ? (C0 & tr3 & qu3 & E3 & I3) HF3]; subst.
  destruct (query_three D n d a b c _ _ _ _ _ _ HD HnD Hd A0 B0 C0 E1 E2 E3 I1 I2 I3)
    as [E|[E|E]]; subst; inversion Hnd as [|? ? N1 N2]; subst; simpl in *; auto.
  inversion N2; subst; simpl in *; auto.
Qed.

Lemma query_disjoint_iff D n : 1 <= D -> 1 < n ->
  ((forall d f1 f2, 0 <= d < D -> 0 <= f1 < n -> 0 <= f2 < n ->
      queried_by D n f1 d -> queried_by D n f2 d -> f1 = f2) <-> (n | D)).
Proof.
  intros HD Hn. split.
  - intros H. destruct (Znumtheory.Zdivide_dec n D) as [|Hnd]; [assumption|exfalso].
    destruct (overlap_if_not_dividing D n HD Hn Hnd) as (f & Hf & tr0 & qu0 & tr & qu & E0 & E & I0 & I1).
    assert (0 = f); [|lia].
    apply (H 0 0 f); try lia; unfold queried_by; eauto.
  - intros Hdiv d f1 f2 Hd H1 H2 (tr1 & qu1 & E1 & I1) (tr2 & qu2 & E2 & I2).
    eapply query_unique; eauto; lia.
Qed.

Lemma zrange_shift a b k : zrange (a + k) (b + k) = map (fun i => i + k) (zrange a b).
Proof.
  unfold zrange. replace (b + k - (a + k)) with (b - a) by lia.
  rewrite map_map. apply map_ext. intros; lia.
Qed.

Lemma script_query_is_previous_fold D f n : 1 <= D -> 1 < n -> f <= n ->
  exists tr,
    cross_valid_split_indices D (f - 1) n = Ok (tr, snd (script_split_indices D f n)).
Proof.
  intros HD Hn Hf. eexists. apply split_ok. split; [lia|]. split; [lia|]. split; [|reflexivity].
  unfold script_split_indices. cbv zeta. simpl snd.
  set (q := ceil_div D n).
  replace (f * q + (D - q)) with (q * (f - 1) + D) by lia.
  replace (q * (f - 1) + D + q) with (q * (f - 1) + q + D) by lia.
  rewrite zrange_shift, map_map. apply map_ext. intros x.
  rewrite <- (Z_mod_plus_full x 1 D). f_equal. lia.
Qed.
