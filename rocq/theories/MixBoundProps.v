(** * Training the mixture of multinomials and its bound (C200). *)
From Coq Require Import List Reals Arith Bool Lra Lia.
From Verif Require Import Base RealModel RealProofs MixModel MixProofs MixProps VbModel VbProofs BoundSpec BoundProofs GammaProofs GammaWitness BoundModel BoundMore MixBoundSpec MixBoundProofs.
Import ListNotations.
Open Scope nat_scope.

(** ** Rows and tables as functions *)
Definition row_ (l : list R) : vec := fun i => nth i l 0%R.
Definition rows_ (m : list (list R)) : nat -> vec := fun k => row_ (nth k m []).
Definition bound_of (g psi : R -> R) (topicPrior vocabPrior : list R) (W tops : list (list R)) (cp : list R) (wp : list (list R)) : R :=
  mix_bound g psi (length topicPrior) (length vocabPrior) (row_ topicPrior) (row_ vocabPrior) (map row_ W) (map row_ tops) (row_ cp) (rows_ wp).
Definition evidence_of (g : R -> R) (topicPrior vocabPrior : list R) (W : list (list R)) : R :=
  mix_evidence g (length topicPrior) (length vocabPrior) (row_ topicPrior) (row_ vocabPrior) (map row_ W).
Definition pos (l : list R) : Prop := Forall (fun x => (0 < x)%R) l.
(** A distribution over [K] topics. *)
Definition topics_row (K : nat) (l : list R) : Prop := length l = K /\ Forall (fun x => (0 <= x)%R) l /\ rsum l = 1%R.
(** Tables of the right shape. *)
Definition corpus_ok (T : nat) (W : list (list R)) : Prop := Forall (fun r => length r = T /\ Forall (fun x => (0 <= x)%R) r) W.
Definition model_ok (K T : nat) (cp : list R) (wp : list (list R)) : Prop :=
  length cp = K /\ pos cp /\ length wp = K /\ Forall (fun r => length r = T /\ pos r) wp.

Lemma nth_Forall {P : R -> Prop} l i : Forall P l -> i < length l -> P (nth i l 0%R).
Proof. intros F H. rewrite Forall_forall in F. apply F, nth_In, H. Qed.
Lemma vsum_row n l : length l = n -> vsum n (row_ l) = rsum l.
Proof. intros <-. apply rsum_nth. Qed.
Lemma row_proper K l : topics_row K l -> proper K (row_ l).
Proof.
  intros (L & F & S). split; [|rewrite vsum_row by exact L; exact S].
  intros i Hi. apply (nth_Forall (P := fun x => (0 <= x)%R)); [exact F|lia].
Qed.
Lemma rows_proper K tops : Forall (topics_row K) tops -> Forall (proper K) (map row_ tops).
Proof. intros F. apply Forall_map. eapply Forall_impl; [|exact F]. intros l. apply row_proper. Qed.
Lemma corpus_nonneg T W doc t : corpus_ok T W -> In doc (map row_ W) -> t < T -> (0 <= doc t)%R.
Proof.
  intros C H Ht. apply in_map_iff in H as (r & <- & Hr). unfold corpus_ok in C. rewrite Forall_forall in C. destruct (C r Hr) as [L F].
  apply (nth_Forall (P := fun x => (0 <= x)%R)); [exact F|lia].
Qed.
Lemma cp_pos K T cp wp : model_ok K T cp wp -> forall k, k < K -> (0 < row_ cp k)%R.
Proof. intros (L & P & _) k Hk. apply (nth_Forall (P := fun x => (0 < x)%R)); [exact P|lia]. Qed.
Lemma wp_row K T cp wp k : model_ok K T cp wp -> k < K -> length (nth k wp []) = T /\ pos (nth k wp []).
Proof. intros (_ & _ & L & F) Hk. rewrite Forall_forall in F. apply F, nth_In. lia. Qed.
Lemma wp_pos K T cp wp : model_ok K T cp wp -> forall k t, k < K -> t < T -> (0 < rows_ wp k t)%R.
Proof.
  intros M k t Hk Ht. destruct (wp_row K T cp wp k M Hk) as [L P]. apply (nth_Forall (P := fun x => (0 < x)%R)); [exact P|lia].
Qed.
Lemma pos_row l i : pos l -> i < length l -> (0 < row_ l i)%R.
Proof. intros P H. apply (nth_Forall (P := fun x => (0 < x)%R)); assumption. Qed.

(** The bound depends on what is inside the tables only. *)
Lemma dir_gap_ext g psi n prior par par' : (forall i, i < n -> par i = par' i) -> dir_gap g psi n prior par = dir_gap g psi n prior par'.
Proof.
  intros E. unfold dir_gap. rewrite (lnB_ext g n par par' E). f_equal. f_equal. apply vsum_ext. intros i Hi. unfold e_ln.
  rewrite (vsum_ext n par par' E), (E i Hi). reflexivity.
Qed.
Lemma mix_bound_ext g psi K T alpha eta W qs cp cp' wp wp' :
  (forall k, k < K -> cp k = cp' k) -> (forall k t, k < K -> t < T -> wp k t = wp' k t) ->
  mix_bound g psi K T alpha eta W qs cp wp = mix_bound g psi K T alpha eta W qs cp' wp'.
Proof.
  intros E F. unfold mix_bound. rewrite (dir_gap_ext g psi K alpha cp cp' E).
  rewrite (vsum_ext K (fun k => dir_gap g psi T eta (wp k)) (fun k => dir_gap g psi T eta (wp' k)))
    by (intros k Hk; apply dir_gap_ext; intros; apply F; assumption).
  do 3 f_equal. apply rsum_ext. intros [doc q] _. apply vsum_ext. intros k Hk. f_equal. unfold e_ln.
  rewrite (vsum_ext K cp cp' E), (E k Hk). f_equal. apply vsum_ext. intros t Ht. rewrite (vsum_ext T (wp k) (wp' k)) by (intros; apply F; assumption).
  rewrite (F k t Hk Ht). reflexivity.
Qed.

(** ** The E-step and the M-step of the code *)
Lemma dist_topics K l : dist K l -> topics_row K l.
Proof. intros (L & F & S). split; [exact L|]. split; [|exact S]. eapply Forall_impl; [|exact F]. cbn. intros; lra. Qed.
Lemma scores_are psi K T cp wp doc : model_ok K T cp wp -> length doc = T ->
  add_rows (map (dot doc) (ln_words psi wp)) (ln_corpus psi cp) = map (score psi K T (row_ cp) (rows_ wp) (row_ doc)) (seq 0 K).
Proof.
  intros M Ld. pose proof M as (Lc & _ & Lw & _).
  assert (L : length (add_rows (map (dot doc) (ln_words psi wp)) (ln_corpus psi cp)) = K)
    by (unfold add_rows, ln_words, ln_corpus; rewrite map_length, combine_length, !map_length; lia).
  apply (nth_ext _ _ 0%R 0%R); [rewrite L, map_length, seq_length; reflexivity|]. intros k Hk. rewrite L in Hk.
  rewrite nth_map_seq' by exact Hk. unfold add_rows. rewrite (nth_map_lt _ _ _ (0%R, 0%R)) by (unfold ln_words, ln_corpus; rewrite combine_length, !map_length; lia).
  rewrite combine_nth by (unfold ln_words, ln_corpus; rewrite !map_length; lia). unfold ln_words, ln_corpus. rewrite map_map.
  rewrite (nth_map_lt _ _ _ []) by lia. rewrite (nth_map_lt _ _ _ 0%R) by lia. unfold score, e_ln.
  rewrite vsum_row by exact Lc. rewrite Rplus_comm. f_equal. destruct (wp_row K T cp wp k M Hk) as [Lr _].
  rewrite (dot_seq _ _ T) by (rewrite ?map_length; assumption). unfold vsum at 1. apply rsum_ext. intros t Ht. apply in_seq in Ht.
  unfold row_ at 1. f_equal. rewrite (nth_map_lt _ _ _ 0%R) by lia. unfold rows_. rewrite vsum_row by exact Lr. reflexivity.
Qed.
Lemma e_step_rows psi K T W cp wp tops : 0 < K -> model_ok K T cp wp -> corpus_ok T W -> e_step psi W wp cp = Ok tops ->
  length tops = length W /\ forall d k, d < length W -> k < K -> row_ (nth d tops []) k = soft K (score psi K T (row_ cp) (rows_ wp) (row_ (nth d W []))) k.
Proof.
  intros HK M C. revert tops. induction W as [|doc W IH]; intros tops H.
  - injection H as <-. split; [reflexivity|]. cbn. intros; lia.
  - unfold e_step in H. cbn [mapM] in H. inversion C as [|? ? [Ld _] C']; subst.
    rewrite (scores_are psi K (length doc) cp wp doc M eq_refl) in H.
    rewrite softmax_row_spec in H by (intros N; apply (f_equal (@length R)) in N; rewrite map_length, seq_length in N; cbn in N; lia).
    cbn [bind] in H. change (mapM (fun doc => softmax_row (add_rows (map (dot doc) (ln_words psi wp)) (ln_corpus psi cp))) W) with (e_step psi W wp cp) in H.
    destruct (e_step psi W wp cp) as [t|] eqn:E; [|discriminate H]. cbn [bind] in H. injection H as <-.
    destruct (IH C' t eq_refl) as [L Q]. split; [cbn; congruence|]. intros [|d] k Hd Hk.
    + cbn [nth]. apply softmax_of_nth. exact Hk.
    + cbn [nth length] in *. apply Q; [lia|exact Hk].
Qed.
Lemma e_step_topics psi K T W cp wp tops : 0 < K -> model_ok K T cp wp -> e_step psi W wp cp = Ok tops -> Forall (topics_row K) tops.
Proof.
  intros HK (Lc & _ & Lw & _) E. destruct (e_step_ok psi W wp cp) as (t & E' & _ & F); [destruct cp; [cbn in Lc; lia|discriminate]|congruence|].
  rewrite E in E'. injection E' as <-. rewrite Lc in F. eapply Forall_impl; [|exact F]. intros l. apply dist_topics.
Qed.
Lemma e_topic_rows (xs : list R) (tops : list (list R)) k : length xs = length tops -> e_topic xs (map row_ tops) k = dot xs (col tops k).
Proof.
  revert tops. induction xs as [|x xs IH]; intros [|r tops] L; try discriminate L; [reflexivity|].
  specialize (IH tops ltac:(injection L; auto)). unfold e_topic, dot, col in *. cbn [map combine rsum]. rewrite IH. reflexivity.
Qed.
Lemma dot_ones {A} (W : list A) l : length W = length l -> dot (map (fun _ => 1%R) W) l = rsum l.
Proof.
  revert l. induction W as [|w W IH]; intros [|x l] L; try discriminate L; [reflexivity|]. specialize (IH l ltac:(injection L; auto)).
  unfold dot in *. cbn [map combine rsum]. rewrite IH. ring.
Qed.
Lemma new_corpus_is W tops topicPrior k : length W = length tops -> k < length topicPrior ->
  row_ (new_corpus tops topicPrior) k = (row_ topicPrior k + e_topic (map (fun _ : vec => 1%R) (map row_ W)) (map row_ tops) k)%R.
Proof.
  intros L Hk. unfold row_ at 1, new_corpus. rewrite nth_map_seq' by exact Hk. rewrite e_topic_rows by (rewrite !map_length; exact L).
  rewrite dot_ones by (rewrite col_length, map_length; exact L). unfold row_. ring.
Qed.
Lemma new_words_is W tops K vocabPrior k t : length W = length tops -> k < K -> t < length vocabPrior ->
  rows_ (new_words W tops K vocabPrior) k t = (row_ vocabPrior t + e_topic (map (fun doc : vec => doc t) (map row_ W)) (map row_ tops) k)%R.
Proof.
  intros L Hk Ht. unfold rows_, new_words. rewrite nth_map_seq' by exact Hk. unfold row_ at 1. rewrite nth_map_seq' by exact Ht.
  rewrite e_topic_rows by (rewrite !map_length; exact L). rewrite map_map. unfold col, row_. ring.
Qed.
Lemma m_step_model K T W tops topicPrior vocabPrior : length topicPrior = K -> length vocabPrior = T -> pos topicPrior -> pos vocabPrior ->
  length W = length tops -> Forall (topics_row K) tops -> corpus_ok T W ->
  model_ok K T (new_corpus tops topicPrior) (new_words W tops K vocabPrior).
Proof.
  intros LA LE PA PE L F C. assert (PR := rows_proper K tops F).
  assert (P1 : forall k, k < K -> (0 < row_ (new_corpus tops topicPrior) k)%R).
  { intros k Hk. rewrite (new_corpus_is W) by (try assumption; lia). pose proof (pos_row topicPrior k PA ltac:(lia)).
    assert (0 <= e_topic (map (fun _ : vec => 1%R) (map row_ W)) (map row_ tops) k)%R; [|lra].
    apply (e_topic_nonneg K); [exact Hk| |exact PR]. apply Forall_forall. intros x Hx. apply in_map_iff in Hx as (d & <- & _). lra. }
  assert (P2 : forall k t, k < K -> t < T -> (0 < rows_ (new_words W tops K vocabPrior) k t)%R).
  { intros k t Hk Ht. rewrite new_words_is by (try assumption; lia). pose proof (pos_row vocabPrior t PE ltac:(lia)).
    assert (0 <= e_topic (map (fun doc : vec => doc t) (map row_ W)) (map row_ tops) k)%R; [|lra].
    apply (e_topic_nonneg K); [exact Hk| |exact PR]. apply Forall_forall. intros x Hx. apply in_map_iff in Hx as (d & <- & Hd). apply (corpus_nonneg T W); assumption. }
  assert (L1 : length (new_corpus tops topicPrior) = K) by (unfold new_corpus; rewrite map_length, seq_length; exact LA).
  assert (L2 : length (new_words W tops K vocabPrior) = K) by (unfold new_words; rewrite map_length, seq_length; reflexivity).
  split; [exact L1|]. split; [|split; [exact L2|]].
  - apply Forall_forall. intros x Hx. destruct (In_nth _ _ 0%R Hx) as (k & Hk & <-). apply P1. lia.
  - apply Forall_forall. intros r Hr. assert (Lr : length r = T).
    { unfold new_words in Hr. apply in_map_iff in Hr as (k & <- & _). rewrite map_length, seq_length. exact LE. }
    split; [exact Lr|]. destruct (In_nth _ _ [] Hr) as (k & Hk & Ek). apply Forall_forall. intros x Hx. destruct (In_nth _ _ 0%R Hx) as (t & Ht & <-).
    rewrite <- Ek. apply (P2 k t); lia.
Qed.

Section Props.
  Context (g psi : R -> R) (topicPrior vocabPrior : list R).
  Notation K := (length topicPrior).
  Notation T := (length vocabPrior).
  Hypothesis LG : log_gamma g psi.
  Hypothesis HK : 0 < K.
  Hypothesis PA : pos topicPrior.
  Hypothesis PE : pos vocabPrior.
  Notation bound := (bound_of g psi topicPrior vocabPrior).

  (** ** The evidence is the probability of the words: that of empty documents is one,
      and appending any one word to a document shares it out. *)
  Theorem C200_no_words_evidence : forall W, Forall (Forall (fun x => x = 0%R)) W -> evidence_of g topicPrior vocabPrior W = 1%R.
  Proof.
    clear PE. intros W Z. apply evidence_empty; [apply LG|exact HK|intros k Hk; apply pos_row; assumption|].
    intros doc t H Ht. apply in_map_iff in H as (r & <- & Hr). rewrite Forall_forall in Z. specialize (Z r Hr). unfold row_.
    destruct (nth_in_or_default t r 0%R) as [I|I]; [|exact I]. rewrite Forall_forall in Z. exact (Z _ I).
  Qed.
  (** [r] with one more of word [t]. *)
  Definition plus_word (r : list R) (t : nat) : list R := map (fun u => (nth u r 0 + (if u =? t then 1 else 0))%R) (seq 0 (length r)).
  Theorem C200_evidence_shared_by_words : forall W1 r W2, 0 < T -> corpus_ok T (W1 ++ r :: W2) ->
    vsum T (fun t => evidence_of g topicPrior vocabPrior (W1 ++ plus_word r t :: W2)) = evidence_of g topicPrior vocabPrior (W1 ++ r :: W2).
  Proof.
    intros W1 r W2 HT C. unfold evidence_of. rewrite map_app. cbn [map].
    rewrite <- (evidence_token g K T (row_ topicPrior) (row_ vocabPrior)); [|apply LG|exact HK|intros; apply pos_row; assumption|intros; apply pos_row; assumption|exact HT|].
    - apply vsum_ext. intros t Ht. rewrite map_app. cbn [map]. unfold mix_evidence. rewrite !app_length. cbn [length].
      apply rsum_ext. intros z Hz. f_equal.
      assert (Lr : length r = T). { unfold corpus_ok in C. rewrite Forall_forall in C. apply C. apply in_or_app. right. left. reflexivity. }
      assert (E : forall u, u < T -> map (fun doc : vec => doc u) (map row_ W1 ++ row_ (plus_word r t) :: map row_ W2) =
                                     map (fun doc : vec => doc u) (map row_ W1 ++ one_more (row_ r) t :: map row_ W2)).
      { intros u Hu. rewrite !map_app. cbn [map]. do 2 f_equal. unfold row_ at 1, plus_word. rewrite nth_map_seq' by lia. reflexivity. }
      unfold mix_joint. f_equal.
      + f_equal. apply lnB_ext. intros k _. rewrite !map_app. reflexivity.
      + apply vsum_ext. intros k Hk. f_equal. apply lnB_ext. intros u Hu. rewrite (E u Hu). reflexivity.
    - intros d t H Ht. apply (corpus_nonneg T (W1 ++ r :: W2)); [exact C|rewrite map_app; exact H|exact Ht].
  Qed.

  (** ** The bound is below the log evidence. *)
  Theorem C200_bound_below_evidence : forall W tops cp wp, corpus_ok T W -> length W = length tops -> Forall (topics_row K) tops ->
    model_ok K T cp wp -> (bound W tops cp wp <= ln (evidence_of g topicPrior vocabPrior W))%R.
  Proof.
    clear HK. intros W tops cp wp C L F M. apply mix_bound_le.
    - destruct LG as (A1 & A2 & A3); exact (log_gamma_convex g A1 A2 psi A3).
    - intros; apply pos_row; assumption.
    - intros; apply pos_row; assumption.
    - rewrite !map_length. exact L.
    - apply rows_proper, F.
    - intros doc t. apply (corpus_nonneg T W doc t C).
    - apply (cp_pos K T cp wp M).
    - apply (wp_pos K T cp wp M).
  Qed.

  (** ** Each half of an iteration is the best one given the other. *)
  Theorem C200_topics_are_best : forall W tops cp wp tops', corpus_ok T W -> length W = length tops -> Forall (topics_row K) tops ->
    model_ok K T cp wp -> e_step psi W wp cp = Ok tops' -> (bound W tops cp wp <= bound W tops' cp wp)%R.
  Proof.
    clear LG PA PE. intros W tops cp wp tops' C L F M E. destruct (e_step_rows psi K T W cp wp tops' HK M C E) as [L' Q].
    apply e_improves.
    - exact HK.
    - rewrite !map_length. exact L.
    - apply rows_proper, F.
    - rewrite !map_length. exact L'.
    - intros d k Hd Hk. rewrite map_length in Hd. rewrite (nth_map_lt row_ tops' d []) by lia. rewrite (nth_map_lt row_ W d []) by lia. apply Q; assumption.
  Qed.
  Theorem C200_model_is_best : forall W tops cp wp, corpus_ok T W -> length W = length tops -> Forall (topics_row K) tops ->
    model_ok K T cp wp -> (bound W tops cp wp <= bound W tops (new_corpus tops topicPrior) (new_words W tops K vocabPrior))%R.
  Proof.
    clear HK. intros W tops cp wp C L F M. unfold bound_of.
    eapply Rle_trans; [apply (m_improves g psi K T (row_ topicPrior) (row_ vocabPrior))|].
    - destruct LG as (A1 & A2 & A3); exact (log_gamma_convex g A1 A2 psi A3).
    - intros; apply pos_row; assumption.
    - intros; apply pos_row; assumption.
    - rewrite !map_length. exact L.
    - apply rows_proper, F.
    - intros doc t. apply (corpus_nonneg T W doc t C).
    - apply (cp_pos K T cp wp M).
    - apply (wp_pos K T cp wp M).
    - apply Req_le. apply mix_bound_ext.
      + intros k Hk. symmetry. apply new_corpus_is; assumption.
      + intros k t Hk Ht. symmetry. apply new_words_is; assumption.
  Qed.

  (** ** Training never lowers the bound, and never lifts it above the log evidence. *)
  Theorem C200_training_improves : forall n debug lf W docLens wp cp tops wp' cp' tops',
    corpus_ok T W -> length W = length tops -> Forall (topics_row K) tops -> model_ok K T cp wp ->
    em_train psi n debug lf W docLens topicPrior vocabPrior wp cp tops = Ok (wp', cp', tops') ->
    (bound W tops cp wp <= bound W tops' cp' wp' <= ln (evidence_of g topicPrior vocabPrior W))%R /\
    model_ok K T cp' wp' /\ length W = length tops' /\ Forall (topics_row K) tops'.
  Proof.
    intros n debug lf W docLens wp cp tops wp' cp' tops' C L F M H. unfold em_train in H. destruct (existsb _ docLens); [discriminate H|].
    assert (G : (bound W tops cp wp <= bound W tops' cp' wp')%R /\ model_ok K T cp' wp' /\ length W = length tops' /\ Forall (topics_row K) tops').
    { revert H. generalize 0. revert tops cp wp L F M. induction n as [|n IH]; intros tops cp wp L F M itr H; cbn [em_loop] in H.
      - injection H as <- <- <-. split; [apply Rle_refl|]. split; [exact M|]. split; [exact L|exact F].
      - destruct (e_step psi W wp cp) as [t|] eqn:E; [|discriminate H]. cbn [bind] in H.
        pose proof (C200_topics_are_best W tops cp wp t C L F M E) as B1.
        destruct (e_step_rows psi K T W cp wp t HK M C E) as [L' _]. symmetry in L'. pose proof (e_step_topics psi K T W cp wp t HK M E) as F'.
        destruct (small_change tops t (length W) K).
        + injection H as <- <- <-. split; [exact B1|]. split; [exact M|]. split; [exact L'|exact F'].
        + destruct (measures debug lf itr); [discriminate H|].
          pose proof (C200_model_is_best W t cp wp C L' F' M) as B2.
          pose proof (m_step_model K T W t topicPrior vocabPrior eq_refl eq_refl PA PE L' F' C) as M'.
          destruct (IH t _ _ L' F' M' (S itr) H) as [B3 R]. split; [|exact R].
          eapply Rle_trans; [exact B1|]. eapply Rle_trans; [exact B2|exact B3]. }
    destruct G as (G & M' & L' & F'). split; [|split; [exact M'|split; [exact L'|exact F']]]. split; [exact G|].
    apply C200_bound_below_evidence; assumption.
  Qed.

  (** ** A query returns the topics with the highest bound of all. *)
  Theorem C200_query_is_best : forall n W wp cp tops r qs,
    corpus_ok T W -> model_ok K T cp wp -> em_query psi n W wp cp tops = Ok r ->
    length W = length qs -> Forall (topics_row K) qs ->
    (bound W qs cp wp <= bound W r cp wp)%R.
  Proof.
    clear LG PA PE. intros n W wp cp tops r qs C M H L F. destruct n as [|n].
    - exfalso. unfold em_query in H. cbn in H. discriminate H.
    - pose proof M as (Lc & _ & Lw & _).
      destruct (C94_query_result psi n W wp cp tops) as (r' & E & E' & _); [destruct cp; [cbn in Lc; lia|discriminate]|congruence|].
      rewrite H in E. injection E as <-. apply C200_topics_are_best; assumption.
  Qed.
End Props.

(** ** The likelihood that training reports is another matter: it may fall.

    One document with one word of a vocabulary of two; the word parameters that
    newModelAtRandom makes of it (lines 98-108), a thousand copies of the document for
    each topic, are those of a far longer corpus. *)
Ltac rows := repeat first [apply Forall_nil | apply Forall_cons | apply conj]; cbn [length rsum]; try reflexivity; try lra.
Lemma dot2 a b x y : dot [a; b] [x; y] = (a * x + b * y)%R.
Proof. unfold dot. cbn. ring. Qed.
Lemma safe2 a x y : (0 < a)%R -> (a <= x)%R -> (a <= y)%R -> safe_log a [x; y] = [ln x; ln y].
Proof. intros A X Y. rewrite safe_log_above; [reflexivity|exact A|rows; assumption]. Qed.
Lemma point_two (a p q : R) u v x y : (0 < a)%R -> (a <= u)%R -> (a <= v)%R -> (u + v = 1)%R -> (0 < x)%R -> (0 < y)%R ->
  point_like [[1; 0]] (Some [[u; v]]) [p; q] [[x; y]; [x; y]] a = Ok (ln (x / (x + y))).
Proof.
  intros A U V S X Y. unfold point_like. cbn [length seq combine mapM nth]. unfold point_like_doc.
  assert (E : point_logs [1; 0] [u; v] [[x; y]; [x; y]] a = [(ln (x / (x + y)) + ln u)%R; (ln (x / (x + y)) + ln v)%R]).
  { unfold point_logs. rewrite safe2 by assumption. unfold normalised. cbn [map]. unfold counts. cbn [map INR]. rewrite !dot2. unfold add_rows. cbn [combine map].
    cbn [rsum]. replace (x + (y + 0))%R with (x + y)%R by ring. repeat f_equal; ring. }
  rewrite E. destruct (max_of_ok [(ln (x / (x + y)) + ln u)%R; (ln (x / (x + y)) + ln v)%R]) as [mx ->]; [discriminate|]. cbn [bind rsum map]. f_equal.
  assert (P : (0 < x / (x + y))%R) by (apply Rdiv_lt_0_compat; lra).
  assert (X1 : forall w, (0 < w)%R -> exp (ln (x / (x + y)) + ln w - mx) = (x / (x + y) * w * exp (- mx))%R).
  { intros w Hw. unfold Rminus. rewrite !exp_plus, !exp_ln by assumption. reflexivity. }
  rewrite !X1 by lra. replace (x / (x + y) * u * exp (- mx) + (x / (x + y) * v * exp (- mx) + 0))%R with (x / (x + y) * exp (- mx) * (u + v))%R by ring.
  rewrite S, Rmult_1_r, ln_mult by (try exact P; apply exp_pos). rewrite ln_exp. ring.
Qed.
Theorem C200_likelihood_rises_refuted : exists W docLens topicPrior vocabPrior wp cp tops,
  corpus_ok 2 W /\ W = map counts [[1; 0]] /\ model_ok 2 2 cp wp /\ Forall (topics_row 2) tops /\ pos topicPrior /\ pos vocabPrior /\
  forall psi, exists wp' cp' tops',
    em_train psi 1 false 0 W docLens topicPrior vocabPrior wp cp tops = Ok (wp', cp', tops') /\
    forall a, (0 < a <= 1 / 10)%R -> exists before after,
      point_like [[1; 0]] (Some tops) cp wp a = Ok before /\ point_like [[1; 0]] (Some tops') cp' wp' a = Ok after /\ (after < before)%R.
Proof.
  exists [[1; 0]]%R, [1]%R, [3; 3]%R, [11/10; 11/10]%R, [[1001; 1]; [1001; 1]]%R, [3; 3]%R, [[9/10; 1/10]]%R.
  split; [rows|]. split; [reflexivity|]. split; [rows|].
  split; [rows|].
  split; [rows|]. split; [rows|]. intros psi.
  assert (E : e_step psi [[1; 0]]%R [[1001; 1]; [1001; 1]]%R [3; 3]%R = Ok [[1 / 2; 1 / 2]]%R).
  { unfold e_step. cbn [mapM]. rewrite softmax_row_spec by discriminate. cbn [bind]. do 2 f_equal.
    unfold softmax_of, ln_words, ln_corpus. cbn [map]. rewrite !dot2. unfold add_rows. cbn [combine map].
    set (s := (_ + _)%R). assert (0 < exp s)%R by apply exp_pos. cbn [map rsum].
    assert (X : (exp s / (exp s + (exp s + 0)))%R = (1 / 2)%R) by (field; lra). cbn [map rsum]. rewrite X. reflexivity. }
  assert (N : small_change [[9/10; 1/10]]%R [[1/2; 1/2]]%R 1 2 = false).
  { unfold small_change, change. apply rltb_false. cbn [combine map rsum]. change (INR 2) with (1 + 1)%R. change (INR 1) with 1%R.
    rewrite (Rabs_right (9/10 - 1/2)) by lra. rewrite (Rabs_left (1/10 - 1/2)) by lra. lra. }
  eexists _, _, _. split.
  - unfold em_train. cbn [existsb]. assert (B : rltb 1 1 = false) by (apply rltb_false; lra). rewrite B. cbn [orb]. cbn [em_loop]. rewrite E. cbn [bind].
    change (length [[1; 0]]%R) with 1. change (length [3; 3]%R) with 2. rewrite N. cbn [measures orb andb Nat.ltb Nat.leb]. reflexivity.
  - intros a A. exists (ln (1001 / (1001 + 1)))%R, (ln ((1 / 2 + 11 / 10) / ((1 / 2 + 11 / 10) + 11 / 10)))%R. split; [apply point_two; lra|]. split.
    + assert (W1 : new_words [[1; 0]]%R [[1 / 2; 1 / 2]]%R 2 [11 / 10; 11 / 10]%R = [[1 / 2 + 11 / 10; 11 / 10]; [1 / 2 + 11 / 10; 11 / 10]]%R).
      { unfold new_words, col, dot. cbn [length seq map combine rsum nth]. repeat (apply (f_equal2 (@cons (list R))); [repeat (apply (f_equal2 (@cons R)); [lra|]); reflexivity|]). reflexivity. }
      rewrite W1. unfold new_corpus. cbn [length seq map]. apply point_two; lra.
    + apply ln_increasing; lra.
Qed.

(** ** Cases *)
Lemma case_ok : corpus_ok 2 [[1; 1]; [3; 0]]%R /\ Forall (topics_row 2) [[1 / 2; 1 / 2]; [1; 0]]%R /\ model_ok 2 2 [1; 1]%R [[1; 1]; [2; 1]]%R.
Proof.
  split; [rows|]. split; [|rows].
  rows.
Qed.
Example C200_case : exists wp cp tops,
  em_train digamma 4 false 0 [[1; 1]; [3; 0]]%R [2; 3]%R [1; 1]%R [2; 2]%R [[1; 1]; [2; 1]]%R [1; 1]%R [[1 / 2; 1 / 2]; [1; 0]]%R = Ok (wp, cp, tops) /\
  (bound_of lnGamma digamma [1; 1]%R [2; 2]%R [[1; 1]; [3; 0]]%R [[1 / 2; 1 / 2]; [1; 0]]%R [1; 1]%R [[1; 1]; [2; 1]]%R <=
   bound_of lnGamma digamma [1; 1]%R [2; 2]%R [[1; 1]; [3; 0]]%R tops cp wp <=
   ln (evidence_of lnGamma [1; 1]%R [2; 2]%R [[1; 1]; [3; 0]]%R))%R.
Proof.
  destruct case_ok as (C & F & M).
  destruct (C93_training digamma 3 [[1; 1]; [3; 0]]%R [2; 3]%R [1; 1]%R [2; 2]%R [[1; 1]; [2; 1]]%R [1; 1]%R [[1 / 2; 1 / 2]; [1; 0]]%R)
    as (wp & cp & tops & E & _); [rows|discriminate|rows|reflexivity|reflexivity|].
  exists wp, cp, tops. split; [exact E|].
  refine (proj1 (C200_training_improves lnGamma digamma [1; 1]%R [2; 2]%R lnGamma_log_gamma _ _ _ 4 false 0 _ _ _ _ [[1 / 2; 1 / 2]; [1; 0]]%R _ _ _ C eq_refl F M E)).
  - cbn; lia.
  - rows.
  - rows.
Qed.
Example C200_query_case : exists r, em_query digamma 2 [[1; 1]; [3; 0]]%R [[1; 1]; [2; 1]]%R [1; 1]%R [] = Ok r /\
  (bound_of lnGamma digamma [1; 1]%R [2; 2]%R [[1; 1]; [3; 0]]%R [[1 / 2; 1 / 2]; [1; 0]]%R [1; 1]%R [[1; 1]; [2; 1]]%R <=
   bound_of lnGamma digamma [1; 1]%R [2; 2]%R [[1; 1]; [3; 0]]%R r [1; 1]%R [[1; 1]; [2; 1]]%R)%R.
Proof.
  destruct case_ok as (C & F & M).
  destruct (C94_query_result digamma 1 [[1; 1]; [3; 0]]%R [[1; 1]; [2; 1]]%R [1; 1]%R []) as (r & E & _); [discriminate|reflexivity|].
  exists r. split; [exact E|]. refine (C200_query_is_best lnGamma digamma [1; 1]%R [2; 2]%R _ 2 _ _ _ [] r [[1 / 2; 1 / 2]; [1; 0]]%R C M E eq_refl F). cbn; lia.
Qed.
(** One document: the two words share the evidence of an empty corpus. *)
Example C200_evidence_case : (evidence_of lnGamma [1; 1]%R [2; 2]%R [[1; 0]]%R + evidence_of lnGamma [1; 1]%R [2; 2]%R [[0; 1]]%R = 1)%R.
Proof.
  assert (P1 : pos [1; 1]%R) by (rows). assert (P2 : pos [2; 2]%R) by (rows).
  pose proof (C200_evidence_shared_by_words lnGamma digamma [1; 1]%R [2; 2]%R lnGamma_log_gamma ltac:(cbn; lia) P1 P2 [] [0; 0]%R [] ltac:(cbn; lia)) as S.
  rewrite (C200_no_words_evidence lnGamma digamma [1; 1]%R [2; 2]%R lnGamma_log_gamma ltac:(cbn; lia) P1) in S by rows.
  specialize (S ltac:(rows)). unfold vsum, plus_word in S. cbn [length seq map rsum app nth Nat.eqb] in S.
  rewrite !Rplus_0_l, !Rplus_0_r in S. exact S.
Qed.

Print Assumptions C200_no_words_evidence.
Print Assumptions C200_evidence_shared_by_words.
Print Assumptions C200_bound_below_evidence.
Print Assumptions C200_topics_are_best.
Print Assumptions C200_model_is_best.
Print Assumptions C200_training_improves.
Print Assumptions C200_query_is_best.
Print Assumptions C200_likelihood_rises_refuted.
