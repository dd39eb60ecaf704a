(** * C248: the hashtags that are evaluated. *)
From Coq Require Import List ZArith Arith Bool String Ascii Lia.
From Verif Require Import Base SparseModel RunModel RunProps TagModel.
Import ListNotations.
Open Scope nat_scope.

(** ** Vocabulary *)
Definition hashtag (w : string) : Prop := exists r, w = String "#" r.

Lemma index_of_spec h l : match index_of h l with
  | Ok i => nth_error l i = Some h /\ (forall j, j < i -> nth_error l j <> Some h)
  | Raise _ => ~ In h l end.
Proof.
  induction l as [|w l IH]; [intros []|]. cbn [index_of]. destruct (String.eqb_spec h w) as [->|Hne].
  - split; [reflexivity|lia].
  - destruct (index_of h l) as [i|e]; cbn [bind].
    + destruct IH as [I1 I2]. split; [exact I1|]. intros [|j] Hj; cbn; [congruence|]. apply I2. lia.
    + intros [H|H]; [congruence|auto].
Qed.

Lemma is_hashtag_spec w b : is_hashtag w = Ok b -> (b = true <-> hashtag w).
Proof.
  destruct w as [|c r]; [discriminate|]. cbn. intros [= <-]. rewrite Ascii.eqb_eq. split.
  - intros ->. exists r. reflexivity.
  - intros [r' [= -> _]]. reflexivity.
Qed.

Lemma hashtags_spec l : Forall (fun w => w <> EmptyString) l ->
  exists hs, hashtags l = Ok hs /\ (forall w, In w hs <-> In w l /\ hashtag w) /\ (NoDup l -> NoDup hs).
Proof.
  intros H. induction H as [|w l Hw H IH].
  - exists []. split; [reflexivity|]. split; [intros w; cbn; tauto|]. constructor.
  - destruct IH as (hs & E & Hin & Hn). unfold hashtags in *. cbn [mapM].
    destruct (is_hashtag w) as [b|e] eqn:Eb; [|destruct w; [contradiction|discriminate]]. cbn [bind].
    destruct (mapM is_hashtag l) as [bs|e]; cbn [bind] in *; [|discriminate]. injection E as E.
    cbn [combine filter snd]. pose proof (is_hashtag_spec w b Eb) as Hb. destruct b.
    + exists (w :: hs). cbn [map fst]. rewrite E. split; [reflexivity|]. split.
      * intros v. cbn [In]. rewrite Hin. split; [intros [<-|[? ?]]|intros [[<-|?] ?]]; tauto.
      * intros N. inversion N; subst. constructor; [|auto]. rewrite Hin. tauto.
    + exists hs. rewrite E. split; [reflexivity|]. split.
      * intros v. cbn [In]. rewrite Hin. split; [tauto|]. intros [[<-|?] Hh]; [|tauto]. apply Hb in Hh. discriminate.
      * intros N. inversion N; subst. auto.
Qed.

Lemma mapM_in {A B} (f : A -> res B) l r : mapM f l = Ok r -> forall b, In b r <-> exists a, In a l /\ f a = Ok b.
Proof.
  revert r. induction l as [|a l IH]; intros r; cbn [mapM].
  - intros [= <-] b. cbn. split; [intros []|intros (a & [] & _)].
  - destruct (f a) as [b0|] eqn:Ea; [|discriminate]. cbn [bind]. destruct (mapM f l) as [bs|] eqn:El; [|discriminate]. cbn [bind]. intros [= <-] b.
    cbn [In]. rewrite (IH bs eq_refl b). split.
    + intros [<-|(x & Hx & E)]; [exists a; auto|exists x; auto].
    + intros (x & [<-|Hx] & E); [left; congruence|right; eauto].
Qed.

Lemma index_all l hs : (forall w, In w hs -> In w l) -> exists is, mapM (fun h => index_of h l) hs = Ok is.
Proof.
  induction hs as [|h hs IH]; intros H; [eexists; reflexivity|]. cbn [mapM].
  pose proof (index_of_spec h l) as S. destruct (index_of h l) as [i|e]; [|exfalso; apply S, H; left; reflexivity].
  destruct IH as [is E]; [intros; apply H; right; assumption|]. rewrite E. eexists. reflexivity.
Qed.

Lemma index_nodup l hs is : mapM (fun h => index_of h l) hs = Ok is -> NoDup hs -> NoDup is.
Proof.
  revert is. induction hs as [|h hs IH]; intros is; cbn [mapM]; [intros [= <-] _; constructor|].
  destruct (index_of h l) as [i|] eqn:Ei; [|discriminate]. cbn [bind]. destruct (mapM _ hs) as [js|] eqn:Ej; [|discriminate]. intros [= <-] N.
  inversion N; subst. constructor; [|apply IH; auto]. intros X. apply (mapM_in _ _ _ Ej) in X as (h' & Hh' & E').
  pose proof (index_of_spec h l) as S1. rewrite Ei in S1. pose proof (index_of_spec h' l) as S2. rewrite E' in S2.
  assert (h = h') as <- by (destruct S1, S2; congruence). contradiction.
Qed.

(** ** C248 The hashtag evaluation asks about the most frequent hashtags

    With a dictionary without repeated or empty words, not longer than the vocabulary:
    the words returned are different ones beginning with #, as many as asked for or all of
    them, none left out is more frequent, and the most frequent comes first. *)
Theorem C248_popular_hashtags : forall argsort words dict count,
  sortsZ argsort -> NoDup dict -> Forall (fun w => w <> EmptyString) dict -> List.length dict <= scols words ->
  exists r, popular_hashtag_indices argsort words dict count = Ok r /\
    NoDup r /\ (forall i, In i r -> exists w, nth_error dict i = Some w /\ hashtag w) /\
    (forall i w, nth_error dict i = Some w -> hashtag w -> List.length r < count -> In i r) /\ List.length r <= count /\
    (forall i j w, In i r -> nth_error dict j = Some w -> hashtag w -> ~ In j r -> (frequency words j <= frequency words i)%Z) /\
    (forall i j, i < j < List.length r -> (frequency words (nth j r 0%nat) <= frequency words (nth i r 0%nat))%Z).
Proof.
  intros argsort words dict count HS N NE L. destruct (hashtags_spec dict NE) as (hs & Eh & Hin & Hn).
  destruct (index_all dict hs (fun w Hw => proj1 (proj1 (Hin w) Hw))) as [is Ei].
  pose proof (index_nodup _ _ _ Ei (Hn N)) as Nis.
  assert (M : forall i, In i is <-> exists w, nth_error dict i = Some w /\ hashtag w).
  { intros i. rewrite (mapM_in _ _ _ Ei). split.
    - intros (h & Hh & E). pose proof (index_of_spec h dict) as S. rewrite E in S. exists h. split; [apply S|]. apply Hin, Hh.
    - intros (w & Hw & Ht). exists w. split; [apply Hin; split; [eapply nth_error_In; exact Hw|exact Ht]|].
      pose proof (index_of_spec w dict) as S. destruct (index_of w dict) as [k|e]; [|exfalso; apply S; eapply nth_error_In; exact Hw].
      destruct S as [S _]. f_equal. rewrite NoDup_nth_error in N. apply N; [apply nth_error_Some; congruence|congruence]. }
  unfold popular_hashtag_indices. rewrite Eh. cbn [bind]. rewrite Ei. cbn [bind].
  assert (forallb (fun i => i <? scols words) is = true) as ->.
  { apply forallb_forall. intros i Hi. apply M in Hi as (w & Hw & _). apply Nat.ltb_lt.
    assert (i < List.length dict) by (apply nth_error_Some; congruence). lia. }
  destruct (C104_popular_words argsort words is count HS Nis) as (P1 & P2 & P3 & P4 & P5).
  exists (popular_indices argsort words is count). split; [reflexivity|]. split; [exact P2|].
  split; [intros i Hi; apply M, P3, Hi|]. split; [|split; [lia|split; [|exact P5]]].
  - intros i w Hw Ht Hl. assert (Hi : In i is) by (apply M; eauto).
    destruct (in_dec Nat.eq_dec i (popular_indices argsort words is count)) as [Y|Y]; [exact Y|exfalso].
    assert (NoDup (i :: popular_indices argsort words is count)) as N2 by (constructor; assumption).
    assert (incl (i :: popular_indices argsort words is count) is) as I2 by (intros x [<-|Hx]; [exact Hi|apply P3, Hx]).
    pose proof (NoDup_incl_length N2 I2) as LL. cbn [List.length] in LL. lia.
  - intros i j w Hi Hw Ht Hj. apply P4; auto. apply M. eauto.
Qed.

(** A repeated word is asked about twice, and its second column never. *)
Theorem C248_repeats_refuted : exists words dict,
  Forall (fun w => w <> EmptyString) dict /\ List.length dict <= scols words /\
  (forall argsort, (forall l, List.length (argsort l) = List.length l /\ (forall i, In i (argsort l) -> i < List.length l)) ->
     popular_hashtag_indices argsort words dict 2 = Ok [0; 0]) /\
  frequency words 0 = 1%Z /\ frequency words 1 = 5%Z.
Proof.
  exists (mkS [[(0, 1%Z); (1, 5%Z)]] 2), ["#a"%string; "#a"%string].
  split; [repeat constructor; discriminate|]. split; [cbn; lia|]. split; [|split; reflexivity].
  intros argsort H. cbn. unfold popular_indices. cbn [map].
  destruct (H [column_sum (mkS [[(0, 1%Z); (1, 5%Z)]] 2) 0; column_sum (mkS [[(0, 1%Z); (1, 5%Z)]] 2) 0]) as [Hl Hb].
  destruct (argsort _) as [|a [|b [|c l]]]; try discriminate Hl. unfold last_of. cbn.
  pose proof (Hb a (or_introl eq_refl)) as Ba. pose proof (Hb b (or_intror (or_introl eq_refl))) as Bb. cbn in Ba, Bb.
  destruct a as [|[|a]]; try lia; destruct b as [|[|b]]; try lia; reflexivity.
Qed.

(** An empty word anywhere in the dictionary ends the evaluation. *)
Theorem C248_empty_word_refuted : forall argsort words dict count,
  In EmptyString dict -> popular_hashtag_indices argsort words dict count = Raise IndexError.
Proof.
  intros argsort words dict count H. unfold popular_hashtag_indices, hashtags.
  assert (mapM is_hashtag dict = Raise IndexError) as ->; [|reflexivity].
  induction dict as [|w dict IH]; [destruct H|]. cbn [mapM]. destruct w as [|c r]; [reflexivity|]. cbn [is_hashtag bind].
  destruct H as [H|H]; [discriminate|]. rewrite (IH H). reflexivity.
Qed.

Example C248_case : popular_hashtag_indices isortZ (mkS [[(0, 2%Z); (1, 3%Z)]; [(1, 2%Z); (2, 9%Z)]; [(3, 1%Z)]] 4) ["#x"; "#y"; "z"; "#w"]%string 2 = Ok [1; 0].
Proof. vm_compute. reflexivity. Qed.

Print Assumptions C248_popular_hashtags.
Print Assumptions C248_repeats_refuted.
Print Assumptions C248_empty_word_refuted.
