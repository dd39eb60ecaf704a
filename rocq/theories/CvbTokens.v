(** * Proofs about token lists and the variances kept by CVB. *)
From Coq Require Import List ZArith QArith Arith Bool Lia Lqa Permutation.
From Verif Require Import Base EvalSpec EvalProofs CvbModel CvbSpec CvbProofs CvbMore.
Import ListNotations.
Open Scope nat_scope.

(** ** Swaps *)
Definition transp (i j p : nat) : nat := if p =? i then j else if p =? j then i else p.
Lemma swap_length l i j : length (swap l i j) = length l.
Proof. unfold swap. rewrite map_length, seq_length. reflexivity. Qed.
Lemma swap_nth l i j p : p < length l -> nth p (swap l i j) 0 = nth (transp i j p) l 0.
Proof.
  intros Hp. unfold swap. rewrite (nth_indep _ 0 ((fun p => nth (transp i j p) l 0) 0)) by (rewrite map_length, seq_length; exact Hp).
  rewrite (map_nth (fun p => nth (transp i j p) l 0)). rewrite seq_nth by exact Hp. reflexivity.
Qed.
Lemma transp_bound i j p n : i < n -> j < n -> p < n -> transp i j p < n.
Proof. intros. unfold transp. destruct (p =? i), (p =? j); lia. Qed.
Lemma transp_inj i j p q : transp i j p = transp i j q -> p = q.
Proof.
  unfold transp. destruct (Nat.eqb_spec p i), (Nat.eqb_spec q i), (Nat.eqb_spec p j), (Nat.eqb_spec q j); subst; congruence.
Qed.
Lemma swap_perm l i j : i < length l -> j < length l -> Permutation l (swap l i j).
Proof.
  intros Hi Hj. apply (Permutation_nth l (swap l i j) 0). cbv zeta.
  split; [apply swap_length|]. exists (transp i j). split; [|split].
  - intros x Hx. apply transp_bound; assumption.
  - intros x y _ _. apply transp_inj.
  - intros x Hx. apply swap_nth. exact Hx.
Qed.
Lemma list_ext_nth (l r : list nat) : length l = length r -> (forall p, p < length l -> nth p l 0 = nth p r 0) -> l = r.
Proof. intros HL H. apply (nth_ext l r 0 0); assumption. Qed.
Lemma firstn_nth (l : list nat) n p : p < n -> nth p (firstn n l) 0 = nth p l 0.
Proof.
  revert n p. induction l as [|x l IH]; intros n p H; [rewrite firstn_nil; reflexivity|].
  destruct n; [lia|]. destruct p; [reflexivity|]. cbn [firstn nth]. apply IH. lia.
Qed.
Lemma skipn_nth' (l : list nat) n p : nth p (skipn n l) 0 = nth (n + p) l 0.
Proof.
  revert l. induction n as [|n IH]; intros l; [reflexivity|].
  destruct l; [cbn; destruct p; reflexivity|]. cbn [skipn Nat.add nth]. apply IH.
Qed.
Lemma swap_firstn l i j n : i < n -> j < n -> n <= length l -> firstn n (swap l i j) = swap (firstn n l) i j.
Proof.
  intros Hi Hj Hn. apply list_ext_nth.
  - rewrite swap_length, !firstn_length, swap_length. reflexivity.
  - intros p Hp. rewrite firstn_length, swap_length in Hp.
    rewrite firstn_nth, !swap_nth by (rewrite ?firstn_length; lia).
    rewrite firstn_nth; [reflexivity|]. apply transp_bound; lia.
Qed.
Lemma swap_skipn l i j n : i < n -> j < n -> skipn n (swap l i j) = skipn n l.
Proof.
  intros Hi Hj. apply list_ext_nth.
  - rewrite !skipn_length, swap_length. reflexivity.
  - intros p Hp. rewrite skipn_length, swap_length in Hp.
    rewrite !skipn_nth', swap_nth by lia. unfold transp.
    replace (n + p =? i) with false by (symmetry; apply Nat.eqb_neq; lia).
    replace (n + p =? j) with false by (symmetry; apply Nat.eqb_neq; lia). reflexivity.
Qed.

Lemma shuffle_steps nd (r : nat -> nat * nat) : forall ks row, 0 < nd -> nd <= length row ->
  let out := fold_left (fun l n => let (a, b) := r n in swap l (a mod nd) (b mod nd)) ks row in
  length out = length row /\ Permutation (firstn nd row) (firstn nd out) /\ skipn nd out = skipn nd row.
Proof.
  induction ks as [|k ks IH]; intros row H0 Hl; cbn [fold_left].
  - split; [reflexivity|]. split; [apply Permutation_refl|reflexivity].
  - destruct (r k) as [a b].
    assert (Ha : a mod nd < nd) by (apply Nat.mod_upper_bound; lia).
    assert (Hb : b mod nd < nd) by (apply Nat.mod_upper_bound; lia).
    destruct (IH (swap row (a mod nd) (b mod nd)) H0) as (E1 & E2 & E3); [rewrite swap_length; exact Hl|].
    rewrite swap_length in E1. split; [exact E1|].
    rewrite swap_firstn in E2 by assumption. rewrite swap_skipn in E3 by assumption.
    split; [|exact E3]. eapply Permutation_trans; [|exact E2].
    apply swap_perm; rewrite firstn_length_le by exact Hl; assumption.
Qed.
Lemma shuffle_row_spec nd r row : nd <= length row ->
  length (shuffle_row nd r row) = length row /\
  Permutation (firstn nd row) (firstn nd (shuffle_row nd r row)) /\
  skipn nd (shuffle_row nd r row) = skipn nd row.
Proof.
  intros Hl. unfold shuffle_row. destruct nd as [|nd].
  - cbn [seq fold_left]. auto.
  - apply shuffle_steps; lia.
Qed.

(** ** Expansion *)
Lemma count_occ_repeat' x y n : count_occ Nat.eq_dec (repeat x n) y = if x =? y then n else 0.
Proof.
  induction n; cbn [repeat count_occ]; [destruct (x =? y); reflexivity|].
  rewrite IHn. destruct (Nat.eq_dec x y) as [->|H]; [rewrite Nat.eqb_refl; reflexivity|].
  apply Nat.eqb_neq in H. rewrite H. reflexivity.
Qed.
Lemma expand_count row t : Forall (fun e : nat * Z => (0 <= snd e)%Z) row ->
  Z.of_nat (count_occ Nat.eq_dec (expand_row row) t) = row_count row t.
Proof.
  induction 1 as [|[x v] row Hv _ IH]; [reflexivity|].
  unfold expand_row, row_count in *. cbn [flat_map fst snd] in *.
  rewrite count_occ_app, count_occ_repeat'. cbn [filter fst].
  destruct (Nat.eqb_spec x t); cbn [map sumZ snd]; lia.
Qed.
Lemma expand_length row : Forall (fun e : nat * Z => (0 <= snd e)%Z) row ->
  Z.of_nat (length (expand_row row)) = sumZ (map snd row).
Proof.
  induction 1 as [|[x v] row Hv _ IH]; [reflexivity|].
  unfold expand_row in *. cbn [flat_map fst snd map sumZ] in *. rewrite app_length, repeat_length. lia.
Qed.
Lemma fold_max_spec ls : forall l0, (l0 <= fold_left Z.max ls l0)%Z /\ forall x, In x ls -> (x <= fold_left Z.max ls l0)%Z.
Proof.
  induction ls as [|y ls IH]; intros l0; cbn [fold_left]; [split; [lia|intros ? []]|].
  destruct (IH (Z.max l0 y)) as [H1 H2]. split; [lia|]. intros x [->|Hx]; [lia|apply H2; exact Hx].
Qed.

Lemma combine_seq_nth {A} (l : list A) : forall a i, nth_error (combine (seq a (length l)) l) i = option_map (fun x => (a + i, x)) (nth_error l i).
Proof.
  induction l as [|x l IH]; intros a [|i]; try reflexivity.
  - cbn. rewrite Nat.add_0_r. reflexivity.
  - cbn [length seq combine nth_error]. rewrite IH. destruct (nth_error l i); cbn [option_map]; [|reflexivity].
    do 2 f_equal. lia.
Qed.

Lemma nth_error_combine2 {A B} (l : list A) : forall (r : list B) d a b,
  nth_error (combine l r) d = Some (a, b) -> nth_error l d = Some a /\ nth_error r d = Some b.
Proof.
  induction l as [|x l IH]; intros [|y r] [|d] a b; cbn; try discriminate.
  - intros [= <- <-]. auto.
  - apply IH.
Qed.

Lemma to_word_list_spec rows r :
  rows <> [] -> Forall (Forall (fun e : nat * Z => (0 <= snd e)%Z)) rows ->
  exists W, to_word_list rows r = Ok (W, map (fun row => sumZ (map snd row)) rows) /\
    length W = length rows /\
    forall d row w, nth_error rows d = Some row -> nth_error W d = Some w ->
      let nd := Z.to_nat (sumZ (map snd row)) in
      nd <= length w /\ Permutation (expand_row row) (firstn nd w) /\
      (forall x, In x (skipn nd w) -> x = 0).
Proof.
  intros Hne Hpos. unfold to_word_list.
  set (docLens := map (fun row => sumZ (map snd row)) rows).
  destruct docLens as [|l0 ls] eqn:E.
  { destruct rows; [congruence|discriminate]. }
  set (maxN := Z.to_nat (fold_left Z.max ls l0)).
  assert (Hmax : forall row, In row rows -> length (expand_row row) <= maxN).
  { intros row Hrow. rewrite Forall_forall in Hpos. pose proof (expand_length row (Hpos row Hrow)) as HL.
    assert (Hin : In (sumZ (map snd row)) (l0 :: ls)).
    { rewrite <- E. apply (in_map (fun row : list (nat * Z) => sumZ (map snd row))). exact Hrow. }
    destruct (fold_max_spec ls l0) as [M1 M2]. unfold maxN.
    destruct Hin as [->|Hin]; [lia|]. specialize (M2 _ Hin). lia. }
  assert (HW : mapM (fun row => write_row maxN (expand_row row)) rows =
    Ok (map (fun row => expand_row row ++ repeat 0 (maxN - length (expand_row row))) rows)).
  { apply mapM_ok_Forall2. clear E docLens Hne Hpos. induction rows as [|row rows IH]; [constructor|].
    cbn [map]. constructor.
    - unfold write_row. specialize (Hmax row (or_introl eq_refl)).
      apply Nat.leb_le in Hmax. rewrite Hmax. reflexivity.
    - apply IH. intros row' H. apply Hmax. right. exact H. }
  rewrite HW. cbn [bind]. eexists. split; [reflexivity|].
  assert (HdL : length (l0 :: ls) = length rows) by (rewrite <- E; unfold docLens; apply map_length).
  split.
  { rewrite map_length, combine_length, combine_length, map_length, seq_length, HdL. lia. }
  intros d row w Hrow Hw. cbv zeta.
  set (Wl := map (fun row => expand_row row ++ repeat 0 (maxN - length (expand_row row))) rows) in *.
  rewrite nth_error_map in Hw.
  assert (HC : length (combine (l0 :: ls) Wl) = length rows) by (rewrite combine_length, HdL; unfold Wl; rewrite map_length; lia).
  rewrite <- HC, combine_seq_nth in Hw.
  destruct (nth_error (combine (l0 :: ls) Wl) d) as [[nd wl]|] eqn:EN; [|discriminate].
  cbn [option_map fst snd] in Hw. injection Hw as <-.
  assert (E1 : nth_error (l0 :: ls) d = Some nd /\ nth_error Wl d = Some wl).
  { apply nth_error_combine2. exact EN. }
  destruct E1 as [E1 E2]. rewrite <- E in E1. unfold docLens, Wl in E1, E2. rewrite nth_error_map, Hrow in E1, E2.
  cbn [option_map] in E1, E2. injection E1 as <-. injection E2 as <-.
  set (k := Z.to_nat (sumZ (map snd row))).
  assert (Hk : length (expand_row row) = k).
  { unfold k. rewrite Forall_forall in Hpos. apply nth_error_In in Hrow. rewrite <- (expand_length row (Hpos row Hrow)). lia. }
  specialize (Hmax row (nth_error_In _ _ Hrow)).
  assert (HL : length (expand_row row ++ repeat 0 (maxN - length (expand_row row))) = maxN)
    by (rewrite app_length, repeat_length; lia).
  change (0 + d) with d.
  destruct (shuffle_row_spec k (r d) (expand_row row ++ repeat 0 (maxN - length (expand_row row)))) as (S1 & S2 & S3); [lia|].
  split; [rewrite S1; lia|]. split.
  - rewrite firstn_app, Hk, Nat.sub_diag in S2. cbn [firstn] in S2. rewrite app_nil_r in S2.
    rewrite <- Hk in S2 at 1. rewrite firstn_all in S2. rewrite Hk. exact S2.
  - rewrite S3. intros x Hx. rewrite <- Hk, skipn_app, skipn_all, Nat.sub_diag in Hx. cbn [app skipn] in Hx.
    apply repeat_spec in Hx. exact Hx.
Qed.

Lemma sumZ_concat_length rows : Forall (Forall (fun e : nat * Z => (0 <= snd e)%Z)) rows ->
  Z.of_nat (length (flat_map expand_row rows)) = sumZ (map (fun row => sumZ (map snd row)) rows).
Proof.
  induction 1 as [|row rows Hr _ IH]; [reflexivity|].
  cbn [flat_map map sumZ]. rewrite app_length. pose proof (expand_length row Hr). lia.
Qed.

Lemma flatten_spec T rows : T <= u16 ->
  Forall (Forall (fun e : nat * Z => (0 <= snd e)%Z /\ fst e < T)) rows ->
  flatten_rows T rows = Ok (concat (map expand_row rows), map (fun row => sumZ (map snd row)) rows).
Proof.
  intros HT HF. unfold flatten_rows. replace (u16 <? T) with false by (symmetry; apply Nat.ltb_ge; exact HT).
  assert (Hpos : Forall (Forall (fun e : nat * Z => (0 <= snd e)%Z)) rows).
  { eapply Forall_impl; [|exact HF]. intros row. apply Forall_impl. intros e. tauto. }
  pose proof (sumZ_concat_length rows Hpos) as HL. cbv zeta.
  destruct (Z.ltb_spec (sumZ (map (fun row : list (nat * Z) => sumZ (map snd row)) rows)) 0) as [H|_]; [lia|].
  rewrite <- HL, Nat2Z.id, Nat.leb_refl, Nat.sub_diag. cbn [repeat]. rewrite app_nil_r, flat_map_concat_map.
  do 2 f_equal. rewrite <- (map_id (concat (map expand_row rows))) at 2.
  apply map_ext_in. intros t Ht. apply Nat.mod_small.
  apply in_concat in Ht as (l & Hl & Ht). apply in_map_iff in Hl as (row & <- & Hrow).
  unfold expand_row in Ht. apply in_flat_map in Ht as (e & He & Ht). apply repeat_spec in Ht. subst t.
  rewrite Forall_forall in HF. specialize (HF row Hrow). rewrite Forall_forall in HF. specialize (HF e He). lia.
Qed.

(** ** CVB variances *)
Definition spread (z : nat -> nat -> nat -> Q) : nat -> nat -> nat -> Q :=
  fun d n k => (z d n k * (1 - z d n k))%Q.

Definition vinv (c : corpus) (K : nat) bkt bk bvkt bvk (s : vst) : Prop :=
  tallies (ndocs c) (words c) (doclen c) K bkt bk (n_dk s) (n_kt s) (n_k s) (v_z s) /\
  tallies (ndocs c) (words c) (doclen c) K bvkt bvk (v_dk s) (v_kt s) (v_k s) (spread (v_z s)).
Definition ninv (c : corpus) (K : nat) bkt bk (s : vst) : Prop :=
  tallies (ndocs c) (words c) (doclen c) K bkt bk (n_dk s) (n_kt s) (n_k s) (v_z s).

Lemma cvb_update_ninv c K bkt bk f32 d n k p s : d < ndocs c -> n < doclen c d ->
  ninv c K bkt bk s -> ninv c K bkt bk (cvb_update c f32 d n k p s).
Proof.
  intros Hd Hn HI. unfold ninv, cvb_update. cbn [n_dk n_kt n_k v_z].
  eapply (tallies_update _ _ _ _ _ _ _ _ _ _ d n k (p - v_z s d n k)%Q); try eassumption.
  - intros. apply upd3_delta.
  - intros. apply upd2_delta.
  - intros. apply upd2_delta.
  - intros. apply upd1_delta.
Qed.
Lemma spread_delta z d n k p a b e :
  (spread (upd3 z d n k p) a b e ==
   spread z a b e + delta3 d n k (p * (1 - p) - z d n k * (1 - z d n k)) a b e)%Q.
Proof.
  unfold spread, upd3, upd2, upd1, delta3.
  destruct (Nat.eqb_spec a d) as [->|]; [|ring].
  destruct (Nat.eqb_spec b n) as [->|]; [|ring].
  destruct (Nat.eqb_spec e k) as [->|]; ring.
Qed.
Lemma cvb_update_vinv c K bkt bk bvkt bvk d n k p s : d < ndocs c -> n < doclen c d ->
  vinv c K bkt bk bvkt bvk s -> vinv c K bkt bk bvkt bvk (cvb_update c false d n k p s).
Proof.
  intros Hd Hn [H1 H2]. split; [apply cvb_update_ninv; assumption|].
  unfold cvb_update, var_diff. cbn [v_dk v_kt v_k v_z].
  eapply (tallies_update _ _ _ _ _ _ _ _ _ _ d n k (p * (1 - p) - v_z s d n k * (1 - v_z s d n k))%Q); try eassumption.
  - intros. apply spread_delta.
  - intros. apply upd2_delta.
  - intros. apply upd2_delta.
  - intros. apply upd1_delta.
Qed.

(** Anything kept by every update of a token of the corpus is kept by a run. *)
Lemma cvb_iterate_keeps (P : vst -> Prop) c f32 K prob :
  (forall d n k p s, d < ndocs c -> n < doclen c d -> P s -> P (cvb_update c f32 d n k p s)) ->
  forall iters s, P s -> P (fst (cvb_iterate c f32 K prob iters s)).
Proof.
  intros Hu iters s Hs.
  assert (Htok : forall sb dn, In dn (tokens c) -> P (fst sb) -> P (fst (cvb_token c f32 K prob sb dn))).
  { intros sb dn Hdn HP. apply tokens_in in Hdn as [Hd Hn]. unfold cvb_token.
    destruct (snd sb) eqn:Esb; [|exact HP]. generalize (seq 0 K). intros ks.
    generalize (fst sb) at 1. intros s0.
    assert (Hgen : forall ks sb, P (fst sb) -> P (fst (fold_left (fun (sb : vst * bool) k => if snd sb then
                 match prob s0 (fst dn) (snd dn) k with
                 | Some p => (cvb_update c f32 (fst dn) (snd dn) k p (fst sb), true)
                 | None => (fst sb, false)
                 end else sb) ks sb))).
    { clear ks sb Esb HP. induction ks as [|k ks IH]; intros sb HP; [exact HP|]. cbn [fold_left]. apply IH.
      destruct (snd sb); [|exact HP]. destruct (prob s0 (fst dn) (snd dn) k); [|exact HP].
      cbn [fst]. apply Hu; assumption. }
    apply Hgen. exact HP. }
  unfold cvb_iterate. induction iters as [|n IH]; [exact Hs|].
  change (Nat.iter (S n) ?f ?x) with (f (Nat.iter n f x)).
  revert IH. generalize (Nat.iter n (fun sb => fold_left (cvb_token c f32 K prob) (tokens c) sb) (s, true)).
  intros sb Hsb. cbv beta.
  assert (Hl : incl (tokens c) (tokens c)) by apply incl_refl. revert sb Hsb Hl. generalize (tokens c) at 1 3.
  induction l as [|dn l IHl]; intros sb Hsb Hl; [exact Hsb|]. cbn [fold_left]. apply IHl.
  - apply Htok; [apply Hl; left; reflexivity|exact Hsb].
  - intros x Hx. apply Hl. right. exact Hx.
Qed.

(** *** Initial counts *)
Definition cc_step (c : corpus) (z : nat -> nat -> nat -> Q) (s : vst) (x : nat * (nat * nat)) : vst :=
  let (k, dn) := x in let (d, n) := dn in
  let t := words c d n in
  let val := z d n k in
  let w := (val * (1 - val))%Q in
  mkV (upd2 (n_dk s) d k (n_dk s d k + val)%Q) (upd2 (n_kt s) k t (n_kt s k t + val)%Q)
      (upd1 (n_k s) k (n_k s k + val)%Q)
      (upd2 (v_dk s) d k (v_dk s d k + w)%Q) (upd2 (v_kt s) k t (v_kt s k t + w)%Q)
      (upd1 (v_k s) k (v_k s k + w)%Q) (v_z s).
Definition zsel (z : nat -> nat -> nat -> Q) (p : nat -> nat -> nat -> bool) (x : nat * (nat * nat)) : Q :=
  let (k, dn) := x in let (d, n) := dn in if p d n k then z d n k else 0%Q.

Lemma cc_steps c z : forall L s,
  let s' := fold_left (cc_step c z) L s in
  (forall d' k', n_dk s' d' k' == n_dk s d' k' + qsum (zsel z (fun d n k => (d' =? d) && (k' =? k))) L)%Q /\
  (forall k' t', n_kt s' k' t' == n_kt s k' t' + qsum (zsel z (fun d n k => (k' =? k) && (t' =? words c d n))) L)%Q /\
  (forall k', n_k s' k' == n_k s k' + qsum (zsel z (fun d n k => k' =? k)) L)%Q /\
  (forall d' k', v_dk s' d' k' == v_dk s d' k' + qsum (zsel (spread z) (fun d n k => (d' =? d) && (k' =? k))) L)%Q /\
  (forall k' t', v_kt s' k' t' == v_kt s k' t' + qsum (zsel (spread z) (fun d n k => (k' =? k) && (t' =? words c d n))) L)%Q /\
  (forall k', v_k s' k' == v_k s k' + qsum (zsel (spread z) (fun d n k => k' =? k)) L)%Q /\
  v_z s' = v_z s.
Proof.
  induction L as [|[k [d n]] L IH]; intros s; cbn [fold_left].
  - repeat (split; [intros; rewrite qsum_nil; ring|]). reflexivity.
  - destruct (IH (cc_step c z s (k, (d, n)))) as (H1 & H2 & H3 & H4 & H5 & H6 & H7).
    cbn [cc_step n_dk n_kt n_k v_dk v_kt v_k v_z] in *.
    repeat split.
    + intros. rewrite H1, qsum_cons, upd2_delta. cbn [zsel]. ring.
    + intros. rewrite H2, qsum_cons, upd2_delta. cbn [zsel]. ring.
    + intros. rewrite H3, qsum_cons, upd1_delta. cbn [zsel]. ring.
    + intros. rewrite H4, qsum_cons, upd2_delta. cbn [zsel]. unfold spread. destruct (_ && _); ring.
    + intros. rewrite H5, qsum_cons, upd2_delta. cbn [zsel]. unfold spread. destruct (_ && _); ring.
    + intros. rewrite H6, qsum_cons, upd1_delta. cbn [zsel]. unfold spread. destruct (_ =? _); ring.
    + exact H7.
Qed.

Lemma fold_left_map' {A B C} (f : A -> C -> A) (g : B -> C) l a :
  fold_left f (map g l) a = fold_left (fun a b => f a (g b)) l a.
Proof. revert a. induction l; intros; cbn [map fold_left]; auto. Qed.
Lemma fold_left_ext {A B} (f g : A -> B -> A) : (forall a b, f a b = g a b) -> forall l a, fold_left f l a = fold_left g l a.
Proof. intros H. induction l; intros; cbn [fold_left]; [reflexivity|]. rewrite H. apply IHl. Qed.
Lemma fold_left_flat {A B C} (f : A -> C -> A) (g : B -> list C) l : forall a,
  fold_left f (flat_map g l) a = fold_left (fun a b => fold_left f (g b) a) l a.
Proof. induction l; intros; cbn [flat_map fold_left]; [reflexivity|]. rewrite fold_left_app. apply IHl. Qed.
Lemma qsum_flat {A B} (f : B -> Q) (g : A -> list B) l : (qsum f (flat_map g l) == qsum (fun a => qsum f (g a)) l)%Q.
Proof. induction l; cbn [flat_map]; [reflexivity|]. rewrite qsum_app, IHl, qsum_cons. reflexivity. Qed.

Definition cc_list (c : corpus) (K : nat) : list (nat * (nat * nat)) :=
  flat_map (fun k => map (fun dn => (k, dn)) (tokens c)) (seq 0 K).
Lemma qsum_cc c K (f : nat * (nat * nat) -> Q) :
  (qsum f (cc_list c K) ==
   qsum (fun k => qsum (fun d => qsum (fun n => f (k, (d, n))) (seq 0 (doclen c d))) (seq 0 (ndocs c))) (seq 0 K))%Q.
Proof.
  unfold cc_list. rewrite qsum_flat. apply qsum_ext. intros k _. rewrite qsum_map. unfold tokens.
  rewrite qsum_flat. apply qsum_ext. intros d _. rewrite qsum_map. reflexivity.
Qed.

Lemma zsel_doc c K z d' k' : d' < ndocs c -> k' < K ->
  (qsum (zsel z (fun d n k => (d' =? d) && (k' =? k))) (cc_list c K) == doc_total (doclen c) z d' k')%Q.
Proof.
  intros Hd Hk. rewrite qsum_cc.
  rewrite (qsum_ext _ (fun k => if k =? k' then doc_total (doclen c) z d' k' else 0%Q)); [apply qsum_delta; exact Hk|].
  intros k _. rewrite (Nat.eqb_sym k k'). destruct (Nat.eqb_spec k' k) as [<-|].
  - rewrite (qsum_ext _ (fun d => if d =? d' then doc_total (doclen c) z d' k' else 0%Q)); [apply qsum_delta; exact Hd|].
    intros d _. rewrite (Nat.eqb_sym d d'). destruct (Nat.eqb_spec d' d) as [<-|].
    + unfold doc_total. apply qsum_ext. intros n _. cbn [zsel]. rewrite !Nat.eqb_refl. reflexivity.
    + apply qsum_zero. intros n' _. cbn [zsel]. replace (d' =? d) with false by (symmetry; apply Nat.eqb_neq; assumption). reflexivity.
  - apply qsum_zero. intros d _. apply qsum_zero. intros n' _. cbn [zsel].
    replace (k' =? k) with false by (symmetry; apply Nat.eqb_neq; assumption). rewrite andb_false_r. reflexivity.
Qed.
Lemma zsel_word c K z k' t' : k' < K ->
  (qsum (zsel z (fun d n k => (k' =? k) && (t' =? words c d n))) (cc_list c K) == word_total (ndocs c) (words c) (doclen c) z k' t')%Q.
Proof.
  intros Hk. rewrite qsum_cc.
  rewrite (qsum_ext _ (fun k => if k =? k' then word_total (ndocs c) (words c) (doclen c) z k' t' else 0%Q)); [apply qsum_delta; exact Hk|].
  intros k _. rewrite (Nat.eqb_sym k k'). destruct (Nat.eqb_spec k' k) as [<-|].
  - unfold word_total. apply qsum_ext. intros d _. apply qsum_ext. intros n _. cbn [zsel].
    rewrite Nat.eqb_refl, (Nat.eqb_sym t'). reflexivity.
  - apply qsum_zero. intros d _. apply qsum_zero. intros n' _. cbn [zsel].
    replace (k' =? k) with false by (symmetry; apply Nat.eqb_neq; assumption). reflexivity.
Qed.
Lemma zsel_topic c K z k' : k' < K ->
  (qsum (zsel z (fun d n k => k' =? k)) (cc_list c K) == topic_total (ndocs c) (doclen c) z k')%Q.
Proof.
  intros Hk. rewrite qsum_cc.
  rewrite (qsum_ext _ (fun k => if k =? k' then topic_total (ndocs c) (doclen c) z k' else 0%Q)); [apply qsum_delta; exact Hk|].
  intros k _. rewrite (Nat.eqb_sym k k'). destruct (Nat.eqb_spec k' k) as [<-|].
  - unfold topic_total. apply qsum_ext. intros d _. apply qsum_ext. intros n _. cbn [zsel].
    rewrite Nat.eqb_refl. reflexivity.
  - apply qsum_zero. intros d _. apply qsum_zero. intros n' _. cbn [zsel].
    replace (k' =? k) with false by (symmetry; apply Nat.eqb_neq; assumption). reflexivity.
Qed.

Lemma cvb_counts_as_list c K z0 :
  cvb_counts c K z0 = fold_left (cc_step c (zero_tail c z0)) (cc_list c K)
    (mkV (fun _ _ => 0%Q) (fun _ _ => 0%Q) (fun _ => 0%Q) (fun _ _ => 0%Q) (fun _ _ => 0%Q) (fun _ => 0%Q) (zero_tail c z0)).
Proof.
  unfold cvb_counts, cc_list. rewrite fold_left_flat. cbv zeta. apply fold_left_ext. intros s k.
  rewrite fold_left_map'. apply fold_left_ext. intros s' [d n]. reflexivity.
Qed.
Lemma cvb_counts_vinv c K z0 :
  vinv c K (fun _ _ => 0%Q) (fun _ => 0%Q) (fun _ _ => 0%Q) (fun _ => 0%Q) (cvb_counts c K z0).
Proof.
  rewrite cvb_counts_as_list.
  match goal with |- vinv _ _ _ _ _ _ (fold_left _ _ ?s) => destruct (cc_steps c (zero_tail c z0) (cc_list c K) s) as (H1 & H2 & H3 & H4 & H5 & H6 & H7) end.
  cbv zeta in *. split; intros k Hk; rewrite ?H7; cbn [v_z n_dk n_kt n_k v_dk v_kt v_k] in *.
  - split; [|split].
    + intros d Hd. rewrite H1, zsel_doc by assumption. ring.
    + intros t. rewrite H2, zsel_word by assumption. ring.
    + rewrite H3, zsel_topic by assumption. ring.
  - split; [|split].
    + intros d Hd. rewrite H4, zsel_doc by assumption. ring.
    + intros t. rewrite H5, zsel_word by assumption. ring.
    + rewrite H6, zsel_topic by assumption. ring.
Qed.
