(** * Proofs about mean_prec_rec_at and combine_map. *)
From Coq Require Import List ZArith QArith Arith Bool Lia Lqa Permutation.
From Verif Require Import Base EvalModel EvalSpec EvalProofs.
Import ListNotations.
Open Scope nat_scope.

Lemma geqb_spec a b : reflect (a = b) (geqb a b).
Proof.
  destruct a as [a1 a2], b as [b1 b2]. unfold geqb. cbn [fst snd].
  destruct (Z.eqb_spec a1 b1), (Z.eqb_spec a2 b2); cbn; constructor; congruence.
Qed.
Lemma geqb_refl a : geqb a a = true.
Proof. destruct (geqb_spec a a); congruence. Qed.

Lemma lookup_update {A} g h (f : A -> A) d :
  lookup g (update h f d) = if geqb g h then option_map f (lookup g d) else lookup g d.
Proof.
  induction d as [|[k a] d IH]; cbn; [destruct (geqb g h); reflexivity|].
  destruct (geqb_spec h k) as [->|Hhk]; cbn.
  - destruct (geqb_spec g k); reflexivity.
  - destruct (geqb_spec g k) as [->|].
    + destruct (geqb_spec k h); [congruence|reflexivity].
    + exact IH.
Qed.

Lemma update_keys {A} g (f : A -> A) d : map fst (update g f d) = map fst d.
Proof. induction d as [|[k a] d IH]; cbn; auto. destruct (geqb g k); cbn; congruence. Qed.

Lemma lookup_map {A B} (f : group -> A -> B) d g :
  lookup g (map (fun '(h, a) => (h, f h a)) d) = option_map (f g) (lookup g d).
Proof.
  induction d as [|[k a] d IH]; cbn; auto. destruct (geqb_spec g k) as [->|]; [reflexivity|exact IH].
Qed.

Lemma lookup_In {A} g (d : dict A) a : lookup g d = Some a -> In (g, a) d.
Proof.
  induction d as [|[k b] d IH]; cbn; [discriminate|]. destruct (geqb_spec g k) as [->|]; intros H.
  - injection H as ->. auto.
  - auto.
Qed.
Lemma lookup_key {A} g (d : dict A) : (exists a, lookup g d = Some a) <-> In g (map fst d).
Proof.
  induction d as [|[k b] d IH]; cbn.
  - split; [intros (a & H); discriminate|intros []].
  - destruct (geqb_spec g k) as [->|]; [split; eauto|]. rewrite IH. split; [auto|intros [|]; [congruence|auto]].
Qed.
Lemma lookup_nodup {A} g (d : dict A) a : NoDup (map fst d) -> In (g, a) d -> lookup g d = Some a.
Proof.
  induction d as [|[k b] d IH]; intros N H; [destruct H|]. cbn in *. inversion N; subst.
  destruct (geqb_spec g k) as [->|]; destruct H as [H|H].
  - congruence.
  - exfalso. apply H2. apply in_map_iff. exists (k, a). auto.
  - congruence.
  - auto.
Qed.

Lemma keys_In g gs : In g (keys gs) <-> In g gs.
Proof.
  induction gs as [|h gs IH]; cbn; [tauto|]. rewrite filter_In, IH.
  destruct (geqb_spec h g) as [->|]; cbn; intuition congruence.
Qed.
Lemma keys_NoDup gs : NoDup (keys gs).
Proof.
  induction gs as [|h gs IH]; cbn; constructor.
  - rewrite filter_In, geqb_refl. intros [_ X]. discriminate.
  - apply NoDup_filter. exact IH.
Qed.

(** ** Groups *)
Lemma find_group_ok n gs g : find_group n gs = Ok g <-> in_group gs n g.
Proof.
  induction gs as [|h gs IH]; cbn [find_group].
  - split; [discriminate|]. intros (b & a & E & _). destruct b; discriminate.
  - destruct (_ || _)%bool eqn:E.
    + assert (Hh : fst h = (-1)%Z \/ ~ (fst h <= Z.of_nat n <= snd h)%Z).
      { cbn [fst AllGroups] in E. lia. }
      rewrite IH. split.
      * intros (b & a & -> & H1 & H2 & H3). exists (h :: b), a. split; [reflexivity|]. split; [exact H1|].
        split; [exact H2|]. intros k [<-|Hk]; auto.
      * intros ([|k b] & a & Eq & H1 & H2 & H3); injection Eq as -> ->.
        -- exfalso. destruct Hh; [congruence|tauto].
        -- exists b, a. split; [reflexivity|]. split; [exact H1|]. split; [exact H2|]. intros k' Hk. apply H3. right. exact Hk.
    + cbn [fst AllGroups] in E. split.
      * intros [= <-]. exists [], gs. split; [reflexivity|]. split; [lia|]. split; [lia|]. intros k [].
      * intros ([|k b] & a & Eq & H1 & H2 & H3); injection Eq as -> ->; [reflexivity|].
        exfalso. destruct (H3 k (or_introl eq_refl)); lia.
Qed.

Lemma in_group_In gs n g : in_group gs n g -> In g gs.
Proof. intros (b & a & -> & _). apply in_elt. Qed.
Lemma in_group_notall gs n g : in_group gs n g -> g <> AllGroups.
Proof. intros (b & a & _ & H & _) ->. apply H. reflexivity. Qed.
Lemma in_group_fun gs n g h : in_group gs n g -> in_group gs n h -> g = h.
Proof. rewrite <- !find_group_ok. congruence. Qed.

Lemma all_groups_In_all groups : In AllGroups (all_groups groups).
Proof.
  unfold all_groups. set (gs := match groups with None => _ | Some _ => _ end).
  destruct (existsb (geqb AllGroups) gs) eqn:E.
  - apply existsb_exists in E as (x & Hx & E). destruct (geqb_spec AllGroups x); [subst; exact Hx|discriminate].
  - apply in_app_iff. right. left. auto.
Qed.

(** Which documents count towards a group. *)
Definition memberb (gs : list group) (g : group) (d : doc) : bool :=
  match fst d with
  | [] => false
  | _ => geqb g AllGroups || match find_group (length (fst d)) gs with Ok h => geqb g h | Raise _ => false end
  end.

(** What a document adds to the totals at [m]. *)
Definition doc_prec (argsort : list Q -> list nat) (m : nat) (d : doc) : Q :=
  (qnat (hits (m + 1) (ranking argsort (snd d)) (fst d)) / qnat m)%Q.
Definition doc_rec (argsort : list Q -> list nat) (m : nat) (d : doc) : Q :=
  (qnat (hits (m + 1) (ranking argsort (snd d)) (fst d)) / qnat (length (nodup Nat.eq_dec (fst d))))%Q.

Lemma hits_nil k expt : hits k [] expt = 0.
Proof. unfold hits. rewrite firstn_nil. induction (nodup _ _); cbn; auto. Qed.

Lemma prec_rec_spec recv expt m p r : expt <> [] -> prec_rec recv expt m = Ok (p, r) ->
  (p == qnat (hits (m + 1) recv expt) / qnat m)%Q /\
  (r == qnat (hits (m + 1) recv expt) / qnat (length (nodup Nat.eq_dec expt)))%Q.
Proof.
  intros He. unfold prec_rec. destruct (Nat.eqb_spec (length (pyset (firstn (m + 1) recv))) 0) as [H0|H0].
  - intros [= <- <-]. assert (recv = []) as ->.
    { destruct recv as [|x recv]; [reflexivity|exfalso]. rewrite Nat.add_1_r in H0.
      pose proof (pyset_nonempty (firstn (S m) (x :: recv)) ltac:(discriminate)). lia. }
    rewrite hits_nil, qnat_0. split; unfold Qdiv; ring.
  - intros H. apply bind_ok in H as (p' & Hp & H). apply bind_ok in H as (r' & Hr & [= <- <-]).
    unfold qdiv in Hp, Hr. destruct (m =? 0); [discriminate|]. destruct (length (pyset expt) =? 0); [discriminate|].
    injection Hp as <-. injection Hr as <-. rewrite common_hits. split; reflexivity.
Qed.

Lemma prec_rec_total recv expt m : expt <> [] ->
  ((exists pr, prec_rec recv expt m = Ok pr) <-> (m <> 0 \/ recv = [])).
Proof.
  intros He. unfold prec_rec. destruct (Nat.eqb_spec (length (pyset (firstn (m + 1) recv))) 0) as [H0|H0].
  - split; [|eauto]. intros _. right. destruct recv as [|x recv]; [reflexivity|exfalso]. rewrite Nat.add_1_r in H0.
    pose proof (pyset_nonempty (firstn (S m) (x :: recv)) ltac:(discriminate)). lia.
  - assert (Hr : recv <> []) by (intros ->; rewrite firstn_nil in H0; apply H0; reflexivity).
    unfold qdiv at 1. destruct (Nat.eqb_spec m 0) as [->|]; cbn [bind].
    + split; [intros (pr & X); discriminate|]. intros [|]; congruence.
    + rewrite qdiv_ok by (apply pyset_nonempty; exact He). cbn [bind]. split; eauto.
Qed.

Lemma add_lists_nth a b i : length a = length b -> (nth i (add_lists a b) 0 == nth i a 0 + nth i b 0)%Q.
Proof.
  revert b i; induction a as [|x a IH]; intros [|y b] [|i] H; cbn [add_lists nth] in *; try discriminate; try ring.
  apply IH. injection H. auto.
Qed.
Lemma add_lists_len a b : length (add_lists a b) = length a.
Proof. revert b; induction a; intros [|y b]; cbn; auto. Qed.

Section Fold.
Context (argsort : list Q -> list nat) (ms : list nat) (gs : list group).

Definition adds_up (docs : list doc) (g : group) (t t' : tally) : Prop :=
  length (tprec t') = length ms /\ length (trec t') = length ms /\
  tcount t' = tcount t + length (filter (memberb gs g) docs) /\
  forall i m, nth_error ms i = Some m ->
    (nth i (tprec t') 0 == nth i (tprec t) 0 + qsum (doc_prec argsort m) (filter (memberb gs g) docs))%Q /\
    (nth i (trec t') 0 == nth i (trec t) 0 + qsum (doc_rec argsort m) (filter (memberb gs g) docs))%Q.

Lemma doc_step t t' d : prec_rec_doc argsort ms gs t d = Ok t' ->
  map fst t' = map fst t /\
  forall g x, lookup g t = Some x -> length (tprec x) = length ms -> length (trec x) = length ms ->
  exists x', lookup g t' = Some x' /\ adds_up [d] g x x'.
Proof.
  destruct d as [expt row]. unfold prec_rec_doc. destruct expt as [|e0 ex] eqn:E.
  - intros [= <-]. split; [reflexivity|]. intros g x Hx L1 L2. exists x. split; [exact Hx|].
    unfold adds_up. cbn [filter memberb fst]. split; [exact L1|]. split; [exact L2|].
    split; [cbn [length]; lia|]. intros i m _. rewrite !qsum_nil. split; ring.
  - rewrite <- E. intros H. apply bind_ok in H as (h & Hh & H). apply bind_ok in H as (prs & Hp & [= <-]).
    split; [rewrite !update_keys; reflexivity|]. intros g x Hx L1 L2.
    assert (Hnall := in_group_notall _ _ _ (proj1 (find_group_ok _ _ _) Hh)).
    rewrite !lookup_update, Hx.
    assert (Hmem : memberb gs g (expt, row) = (geqb g AllGroups || geqb g h)%bool).
    { unfold memberb. cbn [fst]. rewrite Hh, E. reflexivity. }
    set (add := add_tally (map fst prs) (map snd prs)).
    assert (Hlen : length prs = length ms) by (eapply mapM_length; eauto).
    exists (if memberb gs g (expt, row) then add x else x). split.
    { rewrite Hmem. destruct (geqb_spec g AllGroups) as [->|].
      - destruct (geqb_spec AllGroups h); [congruence|]. reflexivity.
      - destruct (geqb_spec g h); reflexivity. }
    unfold adds_up. cbn [filter]. destruct (memberb gs g (expt, row)).
    + unfold add, add_tally. cbn [tprec trec tcount length]. rewrite !add_lists_len.
      split; [exact L1|]. split; [exact L2|]. split; [lia|]. intros i m Hm.
      rewrite !add_lists_nth by (rewrite map_length; lia). rewrite !qsum_cons, !qsum_nil.
      pose proof (proj1 (mapM_ok_Forall2 _ _ _) Hp) as HF.
      destruct (Forall2_nth_error_l _ _ _ _ _ HF Hm) as ([p r] & Hpr & Hi).
      assert (nth i (map fst prs) 0%Q = p) as ->.
      { apply nth_error_nth. rewrite nth_error_map, Hpr. reflexivity. }
      assert (nth i (map snd prs) 0%Q = r) as ->.
      { apply nth_error_nth. rewrite nth_error_map, Hpr. reflexivity. }
      apply prec_rec_spec in Hi; [|congruence]. destruct Hi as [-> ->].
      unfold doc_prec, doc_rec. cbn [fst snd]. split; ring.
    + cbn [length]. split; [exact L1|]. split; [exact L2|]. split; [lia|]. intros i m _. rewrite !qsum_nil. split; ring.
Qed.

Lemma fold_spec docs : forall t t', foldM (prec_rec_doc argsort ms gs) t docs = Ok t' ->
  map fst t' = map fst t /\
  forall g x, lookup g t = Some x -> length (tprec x) = length ms -> length (trec x) = length ms ->
  exists x', lookup g t' = Some x' /\ adds_up docs g x x'.
Proof.
  induction docs as [|d docs IH]; intros t t' H; cbn [foldM] in H.
  - injection H as <-. split; [reflexivity|]. intros g x Hx L1 L2. exists x. split; [exact Hx|].
    unfold adds_up. cbn [filter length]. split; [exact L1|]. split; [exact L2|]. split; [lia|].
    intros i m _. rewrite !qsum_nil. split; ring.
  - apply bind_ok in H as (t1 & H1 & H2). destruct (doc_step _ _ _ H1) as [K1 S1]. destruct (IH _ _ H2) as [K2 S2].
    split; [congruence|]. intros g x Hx L1 L2. destruct (S1 g x Hx L1 L2) as (x1 & Hx1 & A1 & A2 & A3 & A4).
    destruct (S2 g x1 Hx1 A1 A2) as (x2 & Hx2 & B1 & B2 & B3 & B4). exists x2. split; [exact Hx2|].
    assert (HF : filter (memberb gs g) (d :: docs) = filter (memberb gs g) [d] ++ filter (memberb gs g) docs).
    { change (d :: docs) with ([d] ++ docs). apply filter_app. }
    unfold adds_up. rewrite HF. split; [exact B1|]. split; [exact B2|]. split; [rewrite app_length; lia|].
    intros i m Hm. destruct (A4 i m Hm) as [P1 R1]. destruct (B4 i m Hm) as [P2 R2].
    rewrite P2, R2, P1, R1, !qsum_app. split; ring.
Qed.

Lemma fold_total docs : forall t,
  (exists t', foldM (prec_rec_doc argsort ms gs) t docs = Ok t') <->
  (forall d, In d docs -> fst d <> [] -> (exists g, in_group gs (length (fst d)) g) /\
     (ranking argsort (snd d) = [] \/ ~ In 0 ms)).
Proof.
  induction docs as [|[expt row] docs IH]; intros t; cbn [foldM].
  - split; [intros _ d []|eauto].
  - assert (HS : (exists t', prec_rec_doc argsort ms gs t (expt, row) = Ok t') <->
      (expt <> [] -> (exists g, in_group gs (length expt) g) /\ (ranking argsort row = [] \/ ~ In 0 ms))).
    { unfold prec_rec_doc. destruct expt as [|e0 ex] eqn:E; [split; [congruence|eauto]|]. rewrite <- E.
      assert (Hne : expt <> []) by congruence.
      destruct (find_group (length expt) gs) as [g|x] eqn:Eg; cbn [bind].
      - apply find_group_ok in Eg. split.
        + intros (t' & H) _. split; [eauto|]. apply bind_ok in H as (prs & Hp & _).
          destruct (ranking argsort row) as [|r0 rs] eqn:Er; [auto|right]. intros H0.
          apply In_nth_error in H0 as (i & Hi).
          pose proof (proj1 (mapM_ok_Forall2 _ _ _) Hp) as HF.
          destruct (Forall2_nth_error_l _ _ _ _ _ HF Hi) as (pr & _ & Hpr).
          destruct (proj1 (prec_rec_total (r0 :: rs) expt 0 Hne)) as [|]; [eauto|congruence|discriminate].
        + intros H. specialize (H Hne) as [_ H].
          assert (exists prs, mapM (prec_rec (ranking argsort row) expt) ms = Ok prs) as (prs & ->); [|cbn [bind]; eauto].
          clear - H Hne. induction ms as [|m l IH]; cbn; [eauto|].
          destruct (proj2 (prec_rec_total (ranking argsort row) expt m Hne)) as (pr & ->).
          { destruct H as [H|H]; [auto|left; intros ->; apply H; left; auto]. }
          cbn [bind]. destruct IH as (prs & ->).
          { destruct H as [H|H]; [auto|right; intros X; apply H; right; auto]. }
          cbn. eauto.
      - split; [intros (t' & X); discriminate|]. intros H. specialize (H Hne) as [(g & Hg) _].
        apply find_group_ok in Hg. congruence. }
    split.
    + intros (t' & H). apply bind_ok in H as (t1 & H1 & H2). intros d [<-|Hd].
      * apply HS. eauto.
      * apply (proj1 (IH t1)); eauto.
    + intros H. destruct (proj2 HS) as (t1 & H1); [apply (H (expt, row)); left; auto|].
      rewrite H1. cbn [bind]. apply IH. intros d Hd. apply H. right. auto.
Qed.
End Fold.

Definition ms_of (at_ : option (list nat)) : list nat := match at_ with None => [100] | Some ms => ms end.

Lemma lookup_const {A} (a : A) gs g : In g gs -> lookup g (map (fun g => (g, a)) gs) = Some a.
Proof.
  induction gs as [|h gs IH]; intros H; [destruct H|]. cbn. destruct (geqb_spec g h); [reflexivity|].
  apply IH. destruct H; [congruence|auto].
Qed.

(** The complete description of a returned table. *)
Lemma result_spec argsort at_ groups docs t :
  mean_prec_rec_at argsort at_ groups docs = Ok t ->
  map fst t = keys (all_groups groups) /\
  forall g, In g (all_groups groups) -> exists x, lookup g t = Some x /\
    let sel := filter (memberb (all_groups groups) g) docs in
    tcount x = length sel /\ length (tprec x) = length (ms_of at_) /\ length (trec x) = length (ms_of at_) /\
    forall i m, nth_error (ms_of at_) i = Some m ->
      (nth i (tprec x) 0 == qsum (doc_prec argsort m) sel / qnat (Nat.max 1 (length sel)))%Q /\
      (nth i (trec x) 0 == qsum (doc_rec argsort m) sel / qnat (Nat.max 1 (length sel)))%Q.
Proof.
  unfold mean_prec_rec_at. fold (ms_of at_). set (ms := ms_of at_). set (gs := all_groups groups).
  intros H. apply bind_ok in H as (t1 & H & [= <-]). apply fold_spec in H as [K S]. split.
  - rewrite map_map. transitivity (map fst t1).
    + apply map_ext. intros [g x]. reflexivity.
    + rewrite K, map_map. cbn. apply map_id.
  - intros g Hg. destruct (S g (mkT (repeat 0%Q (length ms)) (repeat 0%Q (length ms)) 0)) as (x & Hx & A1 & A2 & A3 & A4).
    + apply lookup_const. apply keys_In. exact Hg.
    + apply repeat_length.
    + apply repeat_length.
    + exists (finish x). rewrite (lookup_map (fun _ => finish)), Hx. split; [reflexivity|].
      cbn [tcount tprec trec] in *. unfold finish. cbn [tcount tprec trec]. rewrite !map_length.
      split; [exact A3|]. split; [exact A1|]. split; [exact A2|].
      intros i m Hm. destruct (A4 i m Hm) as [P R]. rewrite A3. cbn [Nat.add].
      assert (Hi : i < length ms) by (apply nth_error_Some; congruence).
      assert (Z0 : forall k, nth k (repeat 0%Q (length ms)) 0%Q = 0%Q).
      { clear. induction (length ms); intros [|k]; cbn; auto. }
      rewrite Z0 in P, R.
      assert (M : forall (f : Q -> Q) l, i < length l -> nth i (map f l) 0%Q = f (nth i l 0%Q)).
      { clear. intros f l Hl. rewrite (nth_indep (map f l) 0%Q (f 0%Q)) by (rewrite map_length; lia). apply map_nth. }
      rewrite !M by lia. rewrite P, R. unfold qnat. split; field; apply Qnot_eq_sym, Qlt_not_eq;
        apply (qnat_pos (Nat.max 1 _)); lia.
Qed.

Lemma returns_iff argsort at_ groups docs : sorts argsort ->
  (exists t, mean_prec_rec_at argsort at_ groups docs = Ok t) <->
  (forall d, In d docs -> fst d <> [] -> (exists g, in_group (all_groups groups) (length (fst d)) g) /\
     (snd d = [] \/ ~ In 0 (ms_of at_))).
Proof.
  intros Hs. unfold mean_prec_rec_at. fold (ms_of at_).
  set (z := map _ (keys _)). 
  transitivity (exists t', foldM (prec_rec_doc argsort (ms_of at_) (all_groups groups)) z docs = Ok t').
  - split.
    + intros (t & H). apply bind_ok in H as (t1 & H & _). eauto.
    + intros (t1 & ->). cbn [bind]. eauto.
  - rewrite fold_total. split; intros H d Hd Hne; specialize (H d Hd Hne); rewrite ranking_nil in * by exact Hs; exact H.
Qed.

(** ** Summing over groups *)
Lemma qsum_swap {A B} (f : A -> B -> Q) la lb :
  (qsum (fun a => qsum (f a) lb) la == qsum (fun b => qsum (fun a => f a b) la) lb)%Q.
Proof.
  induction la as [|a la IH].
  - rewrite qsum_nil. induction lb; [reflexivity|]. rewrite qsum_cons, <- IHlb, qsum_nil. ring.
  - rewrite qsum_cons, IH, <- qsum_plus. apply qsum_ext. intros b _. rewrite qsum_cons. reflexivity.
Qed.

Lemma qsum_filter {A} (p : A -> bool) (f : A -> Q) l :
  (qsum f (filter p l) == qsum (fun a => if p a then f a else 0%Q) l)%Q.
Proof.
  induction l; cbn [filter]; [reflexivity|]. rewrite (qsum_cons (fun a => if p a then f a else 0%Q)). cbv beta.
  destruct (p a); rewrite ?qsum_cons, IHl; ring.
Qed.

Lemma qsum_single (h : group) (v : Q) l : NoDup l -> In h l ->
  (qsum (fun g => if geqb g h then v else 0%Q) l == v)%Q.
Proof.
  induction l as [|a l IH]; intros N H; [destruct H|]. inversion N; subst. rewrite qsum_cons.
  destruct (geqb_spec a h) as [->|].
  - rewrite (qsum_ext _ (fun _ => 0%Q)).
    + rewrite qsum_const. ring.
    + intros g Hg. destruct (geqb_spec g h); [congruence|reflexivity].
  - rewrite IH; [ring|assumption|]. destruct H; [congruence|assumption].
Qed.

Definition proper_groups (gs : list group) : list group :=
  filter (fun g => negb (geqb g AllGroups)) (keys gs).

Lemma groups_partition gs docs (w : doc -> Q) :
  (forall d, In d docs -> fst d <> [] -> exists g, in_group gs (length (fst d)) g) ->
  (qsum (fun g => qsum w (filter (memberb gs g) docs)) (proper_groups gs) ==
   qsum w (with_links docs))%Q.
Proof.
  intros H. rewrite (qsum_ext _ (fun g => qsum (fun d => if memberb gs g d then w d else 0%Q) docs))
    by (intros; apply qsum_filter).
  rewrite qsum_swap. unfold with_links. rewrite qsum_filter. apply qsum_ext. intros d Hd.
  destruct (fst d) as [|e l] eqn:E.
  - rewrite (qsum_ext _ (fun _ => 0%Q)); [rewrite qsum_const; ring|]. intros g _. unfold memberb. rewrite E. reflexivity.
  - destruct (H d Hd) as (h & Hh); [congruence|].
    rewrite (qsum_ext _ (fun g => if geqb g h then w d else 0%Q)).
    + apply qsum_single; [apply NoDup_filter, keys_NoDup|]. apply filter_In. split; [apply keys_In; eapply in_group_In; eauto|].
      apply in_group_notall in Hh. destruct (geqb_spec h AllGroups); [congruence|reflexivity].
    + intros g Hg. apply filter_In in Hg as [_ Hg]. unfold memberb. rewrite <- find_group_ok in Hh. rewrite Hh, E.
      destruct (geqb g AllGroups); [discriminate|]. reflexivity.
Qed.

Lemma member_all gs docs : filter (memberb gs AllGroups) docs = with_links docs.
Proof. apply filter_ext. intros d. unfold memberb. destruct (fst d); reflexivity. Qed.

(** ** combine_map *)
(** All folds report on the groups [gs], with [L] values each. *)
Definition shaped (gs : list group) (L : nat) (r : avgs * counts) : Prop :=
  map fst (fst r) = gs /\ map fst (snd r) = gs /\ forall g l, lookup g (fst r) = Some l -> length l = L.

Definition cnt (g : group) (r : avgs * counts) : nat :=
  match lookup g (snd r) with Some c => c | None => 0 end.
Definition avg (g : group) (i : nat) (r : avgs * counts) : Q :=
  match lookup g (fst r) with Some l => nth i l 0%Q | None => 0%Q end.

Lemma mapM_dict {A B} (f : group -> A -> res B) (d : dict A) d' :
  mapM (fun '(g, a) => do b <- f g a; Ok (g, b)) d = Ok d' ->
  map fst d' = map fst d /\
  forall g a, lookup g d = Some a -> exists b, f g a = Ok b /\ lookup g d' = Some b.
Proof.
  revert d'; induction d as [|[h a] d IH]; intros d' H; cbn in H.
  - injection H as <-. split; [reflexivity|]. intros; discriminate.
  - apply bind_ok in H as (x & Hx & H). apply bind_ok in Hx as (b & Hb & [= <-]).
    apply bind_ok in H as (r & Hr & [= <-]). destruct (IH r Hr) as [K S]. split; [cbn; congruence|].
    intros g a'. cbn. destruct (geqb_spec g h) as [->|]; [intros [= <-]; eauto|apply S].
Qed.

Lemma mapM_dict_total {A B} (f : group -> A -> res B) (d : dict A) : NoDup (map fst d) ->
  ((exists d', mapM (fun '(g, a) => do b <- f g a; Ok (g, b)) d = Ok d') <->
   (forall g a, lookup g d = Some a -> exists b, f g a = Ok b)).
Proof.
  induction d as [|[h a] d IH]; intros N; cbn [mapM].
  - split; [intros _ g a X; discriminate|eauto].
  - inversion N as [|? ? Nh N']; subst. specialize (IH N'). split.
    + intros (d' & H). apply bind_ok in H as (x & Hx & H). apply bind_ok in Hx as (b & Hb & _).
      apply bind_ok in H as (r & Hr & _). intros g a'. cbn. destruct (geqb_spec g h) as [->|]; [intros [= <-]; eauto|].
      apply IH. eauto.
    + intros H. destruct (H h a) as (b & ->); [cbn; rewrite geqb_refl; reflexivity|]. cbn [bind].
      destruct (proj2 IH) as (d' & ->); [|cbn [bind]; eauto]. intros g a' Ha. apply H. cbn.
      destruct (geqb_spec g h) as [->|]; [|exact Ha]. exfalso. apply Nh. apply lookup_key. eauto.
Qed.

Lemma mapM_ext' {A B} (f g : A -> res B) l : (forall a, In a l -> f a = g a) -> mapM f l = mapM g l.
Proof.
  induction l; intros H; cbn; [reflexivity|]. rewrite (H a) by (left; auto). rewrite IHl by (intros; apply H; right; auto).
  reflexivity.
Qed.

Lemma combine_map_spec gs L o n : NoDup gs -> shaped gs L o -> shaped gs L n ->
  ((exists r, combine_map (Some o) n = Ok r) <-> (L = 0 \/ forall g, In g gs -> 0 < cnt g o + cnt g n)) /\
  forall r, combine_map (Some o) n = Ok r -> shaped gs L r /\
    forall g, In g gs -> cnt g r = cnt g o + cnt g n /\
      forall i, i < L ->
        (avg g i r * qnat (cnt g r) == avg g i o * qnat (cnt g o) + avg g i n * qnat (cnt g n))%Q.
Proof.
  intros Ngs (O1 & O2 & O3) (N1 & N2 & N3). destruct o as [oa oc], n as [na nc]. cbn [fst snd] in *.
  unfold combine_map, cnt, avg. cbn [fst snd].
  unfold combine_counts.
  assert (Hc : exists uc, mapM (fun '(g, c) => do n <- get_key g nc; Ok (g, c + n)) oc = Ok uc /\
     map fst uc = gs /\ forall g c1 c2, lookup g oc = Some c1 -> lookup g nc = Some c2 -> lookup g uc = Some (c1 + c2)).
  { assert (E : forall l, mapM (fun '(g, c) => do n <- get_key g nc; Ok (g, c + n)) l =
       mapM (fun '(g, c) => do b <- (do n <- get_key g nc; Ok (c + n)); Ok (g, b)) l).
    { intros l. apply mapM_ext'. intros [g c] _. destruct (get_key g nc); reflexivity. }
    rewrite E. destruct (proj2 (mapM_dict_total (fun g c => do n <- get_key g nc; Ok (c + n)) oc ltac:(congruence)))
      as (uc & Huc).
    - intros g c Hg. assert (In g (map fst nc)) as X by (rewrite N2, <- O2; apply lookup_key; eauto).
      apply lookup_key in X as (c2 & Hc2). unfold get_key. rewrite Hc2. cbn. eauto.
    - exists uc. split; [exact Huc|]. apply mapM_dict in Huc as [K S]. split; [congruence|].
      intros g c1 c2 H1 H2. destruct (S g c1 H1) as (b & Hb & Hl). unfold get_key in Hb. rewrite H2 in Hb.
      cbn in Hb. congruence. }
  destruct Hc as (uc & Huc & Kuc & Luc). rewrite Huc. cbn [bind].
  set (F := fun g lst => do nl <- get_key g na; mapM (fun '(o, n) =>
                                     do c1 <- get_key g oc;
                                     do c2 <- get_key g nc;
                                     do c3 <- get_key g uc;
                                     weighted c1 c2 c3 o n) (combine lst nl)).
  assert (E : forall l, mapM (fun '(g, lst) =>
                     do nl <- get_key g na;
                     do l <- mapM (fun '(o, n) =>
                                     do c1 <- get_key g oc;
                                     do c2 <- get_key g nc;
                                     do c3 <- get_key g uc;
                                     weighted c1 c2 c3 o n) (combine lst nl);
                     Ok (g, l)) l = mapM (fun '(g, lst) => do b <- F g lst; Ok (g, b)) l).
  { intros l. apply mapM_ext'. intros [g lst] _. unfold F. destruct (get_key g na); reflexivity. }
  rewrite E.
  (* per group *)
  assert (HG : forall g, In g gs -> exists ol nl c1 c2, lookup g oa = Some ol /\ lookup g na = Some nl /\
     lookup g oc = Some c1 /\ lookup g nc = Some c2 /\ length ol = L /\ length nl = L /\
     F g ol = mapM (fun '(o, n) => weighted c1 c2 (c1 + c2) o n) (combine ol nl)).
  { intros g Hg.
    assert (exists ol, lookup g oa = Some ol) as (ol & H1) by (apply lookup_key; rewrite O1; exact Hg).
    assert (exists ol, lookup g na = Some ol) as (nl & H2) by (apply lookup_key; rewrite N1; exact Hg).
    assert (exists ol, lookup g oc = Some ol) as (c1 & H3) by (apply lookup_key; rewrite O2; exact Hg).
    assert (exists ol, lookup g nc = Some ol) as (c2 & H4) by (apply lookup_key; rewrite N2; exact Hg).
    exists ol, nl, c1, c2. repeat (split; [eauto|]). unfold F, get_key at 1. rewrite H2. cbn [bind].
    apply mapM_ext'. intros [x y] _. unfold get_key. rewrite H3, H4, (Luc g c1 c2 H3 H4). reflexivity. }
  assert (HW : forall c1 c2 ol nl, length ol = L -> length nl = L ->
     ((exists l, mapM (fun '(o, n) => weighted c1 c2 (c1 + c2) o n) (combine ol nl) = Ok l) <-> (L = 0 \/ 0 < c1 + c2)) /\
     forall l, mapM (fun '(o, n) => weighted c1 c2 (c1 + c2) o n) (combine ol nl) = Ok l ->
       length l = L /\ forall i, i < L -> (nth i l 0 * qnat (c1 + c2) == nth i ol 0 * qnat c1 + nth i nl 0 * qnat c2)%Q).
  { clear. intros c1 c2. induction L as [|L IH]; intros [|x ol] [|y nl] H1 H2; try discriminate.
    - cbn. split; [split; eauto|]. intros l [= <-]. split; [reflexivity|]. intros i Hi. lia.
    - injection H1 as H1. injection H2 as H2. specialize (IH ol nl H1 H2) as [IH1 IH2]. cbn [combine mapM].
      assert (HWt : weighted c1 c2 (c1 + c2) x y = if c1 + c2 =? 0 then Raise ZeroDivisionError
         else Ok ((x * inject_Z (Z.of_nat c1) + y * inject_Z (Z.of_nat c2)) / inject_Z (Z.of_nat (c1 + c2)))%Q) by reflexivity.
      rewrite HWt. destruct (Nat.eqb_spec (c1 + c2) 0) as [Z0|Z0]; cbn [bind].
      + split; [split; [intros (l & X); discriminate|intros; lia]|]. intros l X. discriminate.
      + split.
        * split; [intros; right; lia|]. intros _. destruct (proj2 IH1) as (l & ->); [right; lia|]. cbn. eauto.
        * intros l Hl.
          apply bind_ok in Hl as (r & Hr & [= <-]). destruct (IH2 r Hr) as [Len V]. split; [cbn; lia|].
          intros [|i] Hi; cbn [nth]; [|apply V; lia].
          assert (0 < qnat (c1 + c2))%Q by (apply qnat_pos; lia). unfold qnat in *. field. lra. }
  split.
  - rewrite <- O1 in Ngs. pose proof (mapM_dict_total F oa Ngs) as HT. rewrite O1 in Ngs. split.
    + intros (r & Hr). apply bind_ok in Hr as (ua & Hua & _). destruct (Nat.eq_dec L 0); [auto|right].
      intros g Hg. destruct (HG g Hg) as (ol & nl & c1 & c2 & A1 & A2 & A3 & A4 & A5 & A6 & A7). rewrite A3, A4.
      destruct (proj1 HT (ex_intro _ _ Hua) g ol A1) as (b & Hb). rewrite A7 in Hb.
      destruct (proj1 (proj1 (HW c1 c2 ol nl A5 A6)) (ex_intro _ _ Hb)); lia.
    + intros H. destruct (proj2 HT) as (ua & Hua); [|rewrite Hua; cbn [bind]; eauto].
      intros g a Ha. assert (Hg : In g gs) by (rewrite <- O1; apply lookup_key; eauto).
      destruct (HG g Hg) as (ol & nl & c1 & c2 & A1 & A2 & A3 & A4 & A5 & A6 & A7).
      assert (a = ol) as -> by congruence. rewrite A7. apply HW; auto.
      destruct H as [H|H]; [auto|right]. specialize (H g Hg). rewrite A3, A4 in H. exact H.
  - intros r Hr. apply bind_ok in Hr as (ua & Hua & [= <-]). apply mapM_dict in Hua as [K S]. cbn [fst snd].
    assert (HR : forall g, In g gs -> exists l, lookup g ua = Some l /\ length l = L /\
       forall ol nl c1 c2, lookup g oa = Some ol -> lookup g na = Some nl -> lookup g oc = Some c1 -> lookup g nc = Some c2 ->
        forall i, i < L -> (nth i l 0 * qnat (c1 + c2) == nth i ol 0 * qnat c1 + nth i nl 0 * qnat c2)%Q).
    { intros g Hg. destruct (HG g Hg) as (ol & nl & c1 & c2 & A1 & A2 & A3 & A4 & A5 & A6 & A7).
      destruct (S g ol A1) as (l & Hl & Hlk). rewrite A7 in Hl. destruct (HW c1 c2 ol nl A5 A6) as [_ W].
      destruct (W l Hl) as [Len V]. exists l. split; [exact Hlk|]. split; [exact Len|].
      intros ol' nl' c1' c2' B1 B2 B3 B4.
      assert (ol' = ol) by congruence. assert (nl' = nl) by congruence. assert (c1' = c1) by congruence.
      assert (c2' = c2) by congruence. subst. exact V. }
    split.
    + unfold shaped. cbn [fst snd]. split; [congruence|]. split; [exact Kuc|]. intros g l Hl.
      assert (Hg : In g gs) by (rewrite <- O1, <- K; apply lookup_key; eauto).
      destruct (HR g Hg) as (l' & Hl' & Len & _). congruence.
    + intros g Hg. destruct (HG g Hg) as (ol & nl & c1 & c2 & A1 & A2 & A3 & A4 & A5 & A6 & A7).
      destruct (HR g Hg) as (l & Hl & Len & V). rewrite A3, A4, (Luc g c1 c2 A3 A4). split; [reflexivity|].
      intros i Hi. rewrite Hl, A1, A2. apply (V ol nl c1 c2 A1 A2 A3 A4 i Hi).
Qed.

Definition total (g : group) (rs : list (avgs * counts)) : nat := sumN (map (cnt g) rs).

Lemma combine_from gs L : NoDup gs -> forall rs o r, shaped gs L o -> Forall (shaped gs L) rs ->
  foldM (fun old new => do r <- combine_map old new; Ok (Some r)) (Some o) rs = Ok (Some r) ->
  shaped gs L r /\ forall g, In g gs -> cnt g r = total g (o :: rs) /\
    forall i, i < L -> (avg g i r * qnat (cnt g r) == qsum (fun x => avg g i x * qnat (cnt g x)) (o :: rs))%Q.
Proof.
  intros Ngs rs. induction rs as [|n rs IH]; intros o r Ho HF H; cbn [foldM] in H.
  - injection H as <-. split; [exact Ho|]. intros g Hg. unfold total. split; [cbn; lia|].
    intros i Hi. rewrite qsum_cons, qsum_nil. ring.
  - inversion HF as [|? ? Hn HF']; subst. apply bind_ok in H as (x & Hx & H).
    apply bind_ok in Hx as (o' & Ho' & [= <-]).
    destruct (combine_map_spec gs L o n Ngs Ho Hn) as [_ HC]. destruct (HC o' Ho') as [Sh C].
    destruct (IH o' r Sh HF' H) as [Sr R]. split; [exact Sr|]. intros g Hg.
    destruct (C g Hg) as [C1 C2]. destruct (R g Hg) as [R1 R2]. split.
    + rewrite R1. unfold total. cbn [map]. unfold sumN. cbn [fold_right]. rewrite C1. lia.
    + intros i Hi. rewrite (R2 i Hi), !qsum_cons, (C2 i Hi). ring.
Qed.

Lemma combine_from_total gs L : NoDup gs -> forall rs o, shaped gs L o -> Forall (shaped gs L) rs ->
  ((exists r, foldM (fun old new => do r <- combine_map old new; Ok (Some r)) (Some o) rs = Ok (Some r)) <->
   match rs with [] => True | n :: _ => L = 0 \/ forall g, In g gs -> 0 < cnt g o + cnt g n end).
Proof.
  intros Ngs rs. induction rs as [|n rs IH]; intros o Ho HF; cbn [foldM].
  - split; [auto|eauto].
  - inversion HF as [|? ? Hn HF']; subst. destruct (combine_map_spec gs L o n Ngs Ho Hn) as [HI HC]. split.
    + intros (r & H). apply bind_ok in H as (x & Hx & H). apply bind_ok in Hx as (o' & Ho' & _). apply HI. eauto.
    + intros H. destruct (proj2 HI H) as (o' & Ho'). rewrite Ho'. cbn [bind]. destruct (HC o' Ho') as [Sh C].
      apply IH; auto. destruct rs as [|n2 rs]; [exact I|]. destruct H as [H|H]; [auto|right].
      intros g Hg. destruct (C g Hg) as [-> _]. specialize (H g Hg). lia.
Qed.
