(** * Copies of models (C220, C221) and distributions of topics (C222) *)
From Coq Require Import List String Arith Bool Reals Lia Lra.
From Verif Require Import Base UvModel CopyModel.
Import ListNotations.
Open Scope nat_scope.
Open Scope string_scope.
Open Scope list_scope.

Section specs.
  Context {N A : Type}.
  Variable zero_dim : leaf N -> A.
  Implicit Types (h : @heap A) (m : tuple (leaf N)) (l : leaf N).

  (** A model of a module: it has its fields, and its arrays exist. *)
  Definition exists_in h l : Prop := match l with LArr a => a < List.length h | _ => True end.
  Definition of_module (mo : module_) h m : Prop := map fst m = fields mo /\ forall f l, In (f, l) m -> exists_in h l.
  (** What is copied is an array or a number of numpy; where None is allowed, it may be
      None.  In lda_cvb the variances are None, as they are before training. *)
  Definition has_copy l : Prop := match l with LArr _ | LNp _ => True | _ => False end.
  Definition ready_for m (s : source) : Prop :=
    match s with
    | Keep _ => True
    | Copy f | Vocab f => exists l, getattr m f = Ok l /\ has_copy l
    | CopyIf g f => exists l, getattr m g = Ok l /\ (l = LNone \/ (f = g /\ has_copy l))
    | NpArray f => exists a, getattr m f = Ok (LArr a)
    end.
  Definition ready (mo : module_) m : Prop := Forall (ready_for m) (sources mo).
  (** The parameters that are shared by a model and its copy. *)
  Definition kept (mo : module_) (f : string) : Prop := In (Keep f) (sources mo).
  (** Training a model may change its arrays, but not those that are shared, and may
      make new ones. *)
  Definition tame (mo : module_) (train : nat -> @heap A -> tuple (leaf N) -> @heap A) : Prop :=
    forall i h m, List.length h <= List.length (train i h m) /\
      forall a, a < List.length h -> (forall f, In f (fields mo) -> ~ kept mo f -> getattr m f <> Ok (LArr a)) ->
      nth_error (train i h m) a = nth_error h a.

  Definition target (s : source) : string := match s with Keep f | Copy f | CopyIf f _ | NpArray f | Vocab f => f end.
  Definition fresh h (s : source) l : Prop := match s with Keep _ => True | _ => match l with LArr a => List.length h <= a | _ => True end end.

  Lemma see_more h new l : exists_in h l -> see (h ++ new) l = see h l.
  Proof. destruct l as [| | |a]; cbn; intros H; try reflexivity. rewrite nth_error_app1 by exact H. reflexivity. Qed.
  Lemma exists_more h new l : exists_in h l -> exists_in (h ++ new) l.
  Proof. destruct l; cbn; intros H; try exact I. rewrite app_length. lia. Qed.
  Lemma copy_ok h l : exists_in h l -> has_copy l ->
    exists l' new, copy_leaf h l = Ok (l', h ++ new) /\ see (h ++ new) l' = see h l /\ exists_in (h ++ new) l' /\ (forall a, l' = LArr a -> List.length h <= a).
  Proof.
    destruct l as [|n|n|a]; cbn; intros E H; try contradiction.
    - exists (LNp n), []. rewrite app_nil_r. repeat split. discriminate.
    - destruct (nth_error h a) as [x|] eqn:Q; [|apply nth_error_None in Q; lia]. exists (LArr (List.length h)), [x]. cbn [see exists_in]. repeat split.
      + rewrite nth_error_app2 by lia. rewrite Nat.sub_diag. reflexivity.
      + rewrite app_length. cbn. lia.
      + intros b E'. injection E' as <-. lia.
  Qed.
  Lemma source_ok h m s l : ready_for m s -> getattr m (target s) = Ok l -> exists_in h l ->
    exists l' new, eval_source zero_dim None h m s = Ok (l', h ++ new) /\ see (h ++ new) l' = see h l /\ exists_in (h ++ new) l' /\ fresh h s l'.
  Proof.
    intros RD G E. destruct s as [f|f|g f|f|f]; cbn [target ready_for eval_source fresh] in *.
    - rewrite G. cbn [bind]. exists l, []. rewrite app_nil_r. auto.
    - destruct RD as (l0 & G0 & C). rewrite G in G0. injection G0 as <-. rewrite G. cbn [bind].
      destruct (copy_ok h l E C) as (l' & new & X1 & X2 & X3 & X4). exists l', new. rewrite X1. repeat split; try assumption. destruct l'; auto.
    - destruct RD as (l0 & G0 & C). rewrite G in G0. injection G0 as <-. rewrite G. cbn [bind]. destruct C as [->|(-> & C)].
      + exists LNone, []. rewrite app_nil_r. auto.
      + rewrite G. cbn [bind]. destruct (copy_ok h l E C) as (l' & new & X1 & X2 & X3 & X4). exists l', new. destruct l; cbn in C; try contradiction; rewrite X1; repeat split; try assumption; destruct l'; auto.
    - destruct RD as (a & G0). rewrite G in G0. injection G0 as ->. rewrite G. cbn [bind].
      destruct (copy_ok h (LArr a) E I) as (l' & new & X1 & X2 & X3 & X4). exists l', new. rewrite X1. repeat split; try assumption. destruct l'; auto.
    - destruct RD as (l0 & G0 & C). rewrite G in G0. injection G0 as <-. rewrite G. cbn [bind].
      destruct (copy_ok h l E C) as (l' & new & X1 & X2 & X3 & X4). exists l', new. rewrite X1. repeat split; try assumption. destruct l'; auto.
  Qed.
  Lemma fresh_less h new s l : fresh (h ++ new) s l -> fresh h s l.
  Proof. destruct s; cbn; auto; destruct l; auto; rewrite app_length; lia. Qed.
  Lemma sources_ok m ss : forall h ls, Forall (ready_for m) ss -> Forall2 (fun s l => getattr m (target s) = Ok l /\ exists_in h l) ss ls ->
    exists ls' new, eval_sources zero_dim None h m ss = Ok (ls', h ++ new) /\ map (see (h ++ new)) ls' = map (see h) ls /\
      Forall2 (fresh h) ss ls'.
  Proof.
    induction ss as [|s ss IH]; intros h ls RD F.
    - inversion F; subst. exists [], []. rewrite app_nil_r. cbn. auto.
    - inversion F as [|? l ? ls0 (G & E) F']; subst. inversion RD as [|? ? R1 R2]; subst.
      destruct (source_ok h m s l R1 G E) as (l' & new & X1 & X2 & X3 & X4).
      destruct (IH (h ++ new) ls0 R2) as (ls' & new' & Y1 & Y2 & Y3).
      { clear - F'. induction F' as [|s0 l0 ss0 ls1 (A1 & A2) F' IH]; constructor; [|exact IH]. split; [exact A1|apply exists_more, A2]. }
      exists (l' :: ls'), (new ++ new'). cbn [eval_sources]. rewrite X1. cbn [bind]. rewrite Y1. cbn [bind]. rewrite app_assoc. split; [reflexivity|]. split.
      + cbn [map]. rewrite Y2. rewrite see_more by exact X3. rewrite X2. f_equal.
        clear - F'. induction F' as [|s0 l0 ss0 ls1 (_ & A2) F' IH]; [reflexivity|]. cbn [map]. rewrite IH. rewrite see_more by exact A2. reflexivity.
      + constructor; [exact X4|]. clear - Y3. induction Y3; constructor; [eapply fresh_less; eassumption|assumption].
  Qed.
  Lemma getattr_nodup m : NoDup (map fst m) -> forall f l, In (f, l) m -> getattr m f = Ok l.
  Proof.
    induction m as [|(g, x) m IH]; intros ND f l I; [contradiction|]. cbn [map fst] in ND. inversion ND as [|? ? NI ND']; subst. cbn [getattr].
    destruct I as [E|I]; [injection E as -> ->; rewrite String.eqb_refl; reflexivity|].
    destruct (String.eqb_spec g f) as [->|_]; [|apply IH; assumption]. exfalso. apply NI. apply in_map_iff. exists (f, l). auto.
  Qed.
  (** A module whose sources name its fields one by one. *)
  Definition lined_up (mo : module_) : Prop := map target (sources mo) = fields mo /\ NoDup (fields mo).
  Lemma copy_model mo h m : lined_up mo -> of_module mo h m -> ready mo m ->
    exists m' new, new_model_from_existing zero_dim None mo h m = Ok (m', h ++ new) /\ look (h ++ new) m' = look h m /\
      (forall f a, In f (fields mo) -> ~ kept mo f -> getattr m' f = Ok (LArr a) -> List.length h <= a).
  Proof.
    intros (T & ND) (FS & EX) RD.
    assert (F2 : Forall2 (fun s l => getattr m (target s) = Ok l /\ exists_in h l) (sources mo) (map snd m)).
    { assert (P : forall f l, In (f, l) m -> getattr m f = Ok l /\ exists_in h l).
      { intros f l I. split; [apply getattr_nodup; [rewrite FS; exact ND|exact I]|apply (EX f l I)]. }
      assert (Q : map target (sources mo) = map fst m) by (rewrite T, FS; reflexivity).
      revert Q P. generalize (getattr m). generalize (sources mo). clear. intros ss g. revert ss. induction m as [|(f, l) m IH]; intros [|s ss] Q P; try discriminate Q; constructor.
      - cbn [map fst] in Q. injection Q as -> _. cbn [snd]. apply P. left. reflexivity.
      - apply IH; [cbn in Q; injection Q as _ Q; exact Q|]. intros f' l' I. apply P. right. exact I. }
    destruct (sources_ok m (sources mo) h (map snd m) RD F2) as (ls & new & E & S & FR).
    assert (L : List.length (fields mo) = List.length ls).
    { rewrite <- T, map_length. clear - FR. induction FR as [|? ? ? ? _ _ IH]; [reflexivity|]. cbn. rewrite IH. reflexivity. }
    exists (combine (fields mo) ls), new. unfold new_model_from_existing. rewrite E. cbn [bind]. unfold construct. rewrite (proj2 (Nat.eqb_eq _ _) L). cbn [bind].
    split; [reflexivity|]. split.
    - assert (LK : forall (g : list string) (x : list (leaf N)) (k : @heap A), List.length g = List.length x -> look k (combine g x) = combine g (map (see k) x)).
      { clear. induction g as [|f g IH]; intros [|l x] k H; try discriminate H; [reflexivity|]. cbn [combine look map]. unfold look in IH. rewrite IH by (cbn in H; lia). reflexivity. }
      rewrite LK by exact L. rewrite S. rewrite <- FS. clear. unfold look. induction m as [|(f, l) m IH]; [reflexivity|]. cbn [map combine fst snd]. rewrite IH. reflexivity.
    - intros f a IF NK G. revert FR T L G NK ND. unfold kept. generalize (sources mo) ls (fields mo). clear. intros ss ls fs FR T L G NK ND. revert fs T L G ND.
      induction FR as [|s l ss ls F1 FR IH]; intros [|f0 fs] T L G ND; try discriminate L; [discriminate G|]. cbn [combine getattr] in G. cbn [map] in T. injection T as T0 T.
      destruct (String.eqb_spec f0 f) as [->|_].
      + injection G as ->. destruct s as [g|g|g g'|g|g]; cbn [fresh target] in *; try exact F1. exfalso. apply NK. left. rewrite T0. reflexivity.
      + apply (IH (fun H => NK (or_intror H)) fs T); [cbn in L; lia|exact G|]. inversion ND; assumption.
  Qed.
End specs.

Lemma all_lined_up : Forall lined_up modules.
Proof.
  assert (C : Forall (fun mo => map target (sources mo) = fields mo /\ nodup string_dec (fields mo) = fields mo) modules).
  { repeat (apply Forall_cons; [split; reflexivity|]). apply Forall_nil. }
  rewrite Forall_forall in *. intros mo I. destruct (C mo I) as (T & D). split; [exact T|]. rewrite <- D. apply NoDup_nodup.
Qed.
Lemma look_kept {N A} (h h' : @heap A) (m : tuple (leaf N)) :
  (forall f l, In (f, l) m -> exists_in h l) -> (forall a, a < List.length h -> nth_error h' a = nth_error h a) -> look h' m = look h m.
Proof.
  intros E H. unfold look. apply map_ext_in. intros (f, l) I. f_equal. specialize (E f l I). destruct l as [| | |a]; cbn in *; try reflexivity. rewrite (H a E). reflexivity.
Qed.

(** The copy of a model is equal to the model, and the model stays as it was. *)
Theorem C220_equal : forall (N A : Type) (zero_dim : leaf N -> A) mo h m, In mo modules -> of_module mo h m -> ready mo m ->
  exists m' h', new_model_from_existing zero_dim None mo h m = Ok (m', h') /\ look h' m' = look h m /\ look h' m = look h m.
Proof.
  intros N A zero_dim mo h m I OM RD. pose proof all_lined_up as LU. rewrite Forall_forall in LU.
  destruct (copy_model zero_dim mo h m (LU mo I) OM RD) as (m' & new & E & L & _). exists m', (h ++ new). split; [exact E|]. split; [exact L|].
  apply look_kept; [apply OM|]. intros a H. apply nth_error_app1, H.
Qed.
(** Whatever is done afterwards to the arrays of the copy that are not shared, the
    model stays as it was. *)
Theorem C220_independent : forall (N A : Type) (zero_dim : leaf N -> A) mo h m m' h' h'', In mo modules -> of_module mo h m -> ready mo m ->
  new_model_from_existing zero_dim None mo h m = Ok (m', h') ->
  (forall a, a < List.length h' -> (forall f, In f (fields mo) -> ~ kept mo f -> getattr m' f <> Ok (LArr a)) -> nth_error h'' a = nth_error h' a) ->
  look h'' m = look h m.
Proof.
  intros N A zero_dim mo h m m' h' h'' I OM RD E W. pose proof all_lined_up as LU. rewrite Forall_forall in LU.
  destruct (copy_model zero_dim mo h m (LU mo I) OM RD) as (m1 & new & E1 & _ & FR). rewrite E in E1. injection E1 as <- ->.
  apply look_kept; [apply OM|]. intros a H. rewrite W.
  - apply nth_error_app1, H.
  - rewrite app_length. lia.
  - intros f IF NK G. specialize (FR f a IF NK G). lia.
Qed.
(** The same for the models that hold a topic model. *)
Theorem C220_with_topic_model : forall (N A : Type) (zero_dim : leaf N -> A) mo h l m, mo = lro_vb \/ mo = sim_based_rec ->
  of_module lda_vb_python h l -> ready lda_vb_python l -> of_module mo h m -> ready mo m ->
  exists l' m' h', with_lda zero_dim mo None h l m = Ok (l', m', h') /\ look h' l' = look h l /\ look h' m' = look h m /\
    (forall f a, f = "topicPrior" \/ f = "wordDists" -> getattr l' f = Ok (LArr a) -> List.length h <= a).
Proof.
  intros N A zero_dim mo h l m MO OL RL OM RM. pose proof all_lined_up as LU. rewrite Forall_forall in LU.
  assert (IL : In lda_vb_python modules) by (unfold modules; cbn [In]; tauto). assert (IM : In mo modules) by (unfold modules; destruct MO as [-> | ->]; cbn [In]; tauto).
  destruct (copy_model zero_dim lda_vb_python h l (LU _ IL) OL RL) as (l' & new & E & L & FR).
  assert (OM' : of_module mo (h ++ new) m).
  { destruct OM as (F & EX). split; [exact F|]. intros f x I. apply exists_more, (EX f x I). }
  destruct (copy_model zero_dim mo (h ++ new) m (LU _ IM) OM' RM) as (m' & new' & E' & L' & _).
  exists l', m', ((h ++ new) ++ new'). unfold with_lda. rewrite E. cbn [bind]. rewrite E'. cbn [bind]. split; [reflexivity|]. split; [|split].
  - (* the first copy is still there *)
    rewrite <- L. apply look_kept; [|intros a H; apply nth_error_app1, H].
    (* its arrays exist *)
    intros f x I. assert (LK : look (h ++ new) l' = look h l) by exact L.
    assert (S : In (f, see (h ++ new) x) (look (h ++ new) l')) by (unfold look; apply in_map_iff; exists (f, x); auto).
    rewrite LK in S. unfold look in S. apply in_map_iff in S as ((f0, x0) & Q & I0). injection Q as -> Q. destruct OL as (_ & EX). specialize (EX f x0 I0).
    destruct x as [| | |a]; cbn; try exact Logic.I. cbn [see] in Q. destruct x0 as [| | |b]; try discriminate Q. cbn [see exists_in] in *. injection Q as Q.
    destruct (nth_error h b) eqn:NB; [|apply nth_error_None in NB; lia]. apply nth_error_Some. rewrite <- Q. discriminate.
  - rewrite L'. apply look_kept; [apply OM|]. intros a H. apply nth_error_app1, H.
  - intros f a FF G. apply (FR f a); [|intros K|exact G].
    + destruct FF as [-> | ->]; cbn; tauto.
    + unfold kept in K. cbn in K. destruct FF as [-> | ->]; intuition discriminate.
Qed.
(** What a model is ready to be copied for does not depend on the way it is copied:
    every field that is not a parameter holds an array or a number of numpy, or None
    where the model need not be trained.  In lda_cvb the variances are None. *)
Definition parameters : list string :=
  ["K"; "T"; "F"; "P"; "vocabPrior"; "numSamples"; "processed"; "trained"; "dtype"; "name"; "noiseVar"; "scale"; "method"; "outDocCov"; "pseudoNegCount";
   "regularizer"; "fv"; "lfv"; "tv"; "ltv"].
Definition learnt : list string :=
  ["wordDists"; "wordDistParam"; "corpusTopicDistParam"; "topicSum"; "vocabSum"; "n_dk_samples"; "n_dk"; "n_kt"; "n_k"].
Definition complete {N} (mo : module_) (m : tuple (leaf N)) : Prop :=
  (forall f l, In (f, l) m -> In f parameters \/ has_copy l \/ (l = LNone /\ In f learnt) \/ (l = LNone /\ mo = lda_cvb /\ In f ["v_dk"; "v_kt"; "v_k"])) /\
  (mo = lda_cvb -> forall f, In f ["v_dk"; "v_kt"; "v_k"] -> getattr m f = Ok LNone) /\
  (forall l, In ("predVar", l) m -> exists a, l = LArr a).
Theorem C220_complete : forall (N A : Type) mo (h : @heap A) (m : tuple (leaf N)), In mo modules -> of_module mo h m -> complete mo m -> ready mo m.
Proof.
  intros N A mo h m I (FS & _) (C & V & P). unfold ready. rewrite Forall_forall. intros s IS.
  pose proof all_lined_up as LU. rewrite Forall_forall in LU. destruct (LU mo I) as (T & ND).
  assert (G : exists l, In (target s, l) m /\ getattr m (target s) = Ok l).
  { assert (IT : In (target s) (map fst m)) by (rewrite FS, <- T; apply in_map, IS). apply in_map_iff in IT as ((f, l) & E & IN). cbn in E. subst f.
    exists l. split; [exact IN|]. apply getattr_nodup; [rewrite FS; exact ND|exact IN]. }
  destruct G as (l & IN & G). specialize (C _ _ IN).
  unfold modules in I. cbn [In] in I.
  repeat (destruct I as [<-|I];
    [cbn in IS; repeat (destruct IS as [<-|IS];
       [cbn [target ready_for] in *; first
         [exact Logic.I
         |exists l; split; [exact G|];
          destruct C as [C|[C|[(C & C')|(C & C' & C'')]]];
          [exfalso; cbn in C; intuition discriminate
          |first [exact C | right; split; [reflexivity|exact C] | left; first [rewrite (V eq_refl "v_dk") in G by (cbn; tauto)|rewrite (V eq_refl "v_kt") in G by (cbn; tauto)|rewrite (V eq_refl "v_k") in G by (cbn; tauto)]; injection G as <-; reflexivity]
          |first [left; exact C | exfalso; cbn in C'; intuition discriminate]
          |first [left; exact C | exfalso; discriminate C' | exfalso; cbn in C''; intuition discriminate]]
         |destruct (P l IN) as (a & ->); exists a; exact G]|]); contradiction|]).
  contradiction.
Qed.
(** What is shared are parameters, and in the mixtures the prior over topics. *)
Theorem C220_shared : forall mo f, In mo modules -> kept mo f -> In f parameters \/ ((mo = mom_em \/ mo = mom_gibbs) /\ f = "topicPrior").
Proof.
  intros mo f I K. unfold kept in K. unfold modules in I. cbn [In] in I.
  repeat (destruct I as [<-|I]; [cbn in K; repeat (destruct K as [K|K]; [first [discriminate K|injection K as <-; first [left; cbn; tauto|right; auto]]|]); contradiction|]).
  contradiction.
Qed.
(** A trained model of lda_cvb: its copy has means in place of variances. *)
Definition cvb_heap : list nat := [1; 2; 3; 4; 5; 6].
Definition cvb_model : tuple (leaf nat) := combine (fields lda_cvb)
  [LNum 2; LNp 7; LNum 8; LArr 0; LArr 1; LArr 2; LArr 3; LArr 4; LArr 5; LNum 64; LNum 0].
Theorem C220_trained_cvb_refuted : exists (h : @heap nat) (m m' : tuple (leaf nat)) h', of_module lda_cvb h m /\
  (forall s l, In s (sources lda_cvb) -> (forall f, s <> Keep f) -> getattr m (target s) = Ok l -> has_copy l) /\
  new_model_from_existing (fun _ => 0) None lda_cvb h m = Ok (m', h') /\ look h' m' <> look h m.
Proof.
  exists cvb_heap, cvb_model. eexists. eexists. split; [|split; [|split; [reflexivity|]]].
  - split; [reflexivity|]. intros f l I. cbn in I. repeat (destruct I as [I|I]; [injection I as <- <-; cbn; lia || exact Logic.I|]). contradiction.
  - intros s l I NK G. cbn in I. repeat (destruct I as [<-|I]; [first [exfalso; eapply NK; reflexivity|cbn in G; injection G as <-; exact Logic.I]|]). contradiction.
  - vm_compute. discriminate.
Qed.
(** A number given for the prior of lda_vb stays a number (lines 101-105), and cannot
    be copied. *)
Theorem C220_number_prior_refuted : forall (N A : Type) (zero_dim : leaf N -> A) (h : @heap A) k p b w t n,
  new_model_from_existing zero_dim None lda_vb h (combine (fields lda_vb) [k; LNum p; b; w; t; n]) = Raise AttributeError.
Proof. reflexivity. Qed.
Example C220_complete_case : exists (h : @heap nat) (m : tuple (leaf nat)), of_module rtm h m /\ complete rtm m.
Proof.
  exists [10; 20; 30], (combine (fields rtm) [LNum 2; LArr 0; LNum 9; LNone; LArr 2; LNum 1; LNum 3; LNum 64; LNum 0]). split; [|split; [|split; [discriminate|]]].
  - split; [reflexivity|]. intros f l I. cbn in I. repeat (destruct I as [I|I]; [injection I as <- <-; cbn; lia || exact Logic.I|]). contradiction.
  - intros f l I. cbn in I. repeat (destruct I as [I|I]; [injection I as <- <-; first [left; cbn; tauto|right; left; exact Logic.I|right; right; left; split; [reflexivity|cbn; tauto]]|]). contradiction.
  - intros l I. cbn in I. repeat (destruct I as [I|I]; [discriminate I|]). contradiction.
Qed.
Example C220_case : exists (h : @heap nat) (m : tuple (leaf nat)), of_module lda_vb_python h m /\ ready lda_vb_python m /\
  new_model_from_existing (fun _ => 0) None lda_vb_python h m = Ok (combine (fields lda_vb_python) [LNum 2; LArr 2; LNum 9; LArr 3; LNum 1; LNum 64; LNum 0], [10; 20; 10; 20]).
Proof.
  exists [10; 20], (combine (fields lda_vb_python) [LNum 2; LArr 0; LNum 9; LArr 1; LNum 1; LNum 64; LNum 0]). split; [|split; [|reflexivity]].
  - split; [reflexivity|]. intros f l I. cbn in I. repeat (destruct I as [I|I]; [injection I as <- <-; cbn; lia || exact Logic.I|]). contradiction.
  - unfold ready, lda_vb_python. cbn [sources fields]. repeat (apply Forall_cons; [first [exact Logic.I|eexists; split; [reflexivity|]; exact Logic.I|eexists; split; [reflexivity|]; right; split; [reflexivity|exact Logic.I]]|]). apply Forall_nil.
Qed.

(** ** C221 *)
(** All folds of an evaluation start from the same model. *)
Theorem C221_folds : forall (N A : Type) (zero_dim : leaf N -> A) mo train n i h m, In mo modules -> of_module mo h m -> ready mo m -> tame mo train ->
  folds zero_dim None mo train n i h m = Ok (repeat (look h m) n).
Proof.
  intros N A zero_dim mo train n. induction n as [|n IH]; intros i h m I OM RD TM; [reflexivity|]. cbn [folds repeat].
  pose proof all_lined_up as LU. rewrite Forall_forall in LU.
  destruct (copy_model zero_dim mo h m (LU mo I) OM RD) as (m' & new & E & L & FR). rewrite E. cbn [bind].
  destruct (TM i (h ++ new) m') as (LE & W). rewrite app_length in LE.
  assert (K : forall a, a < List.length h -> nth_error (train i (h ++ new) m') a = nth_error h a).
  { intros a H. rewrite W; [apply nth_error_app1, H|rewrite app_length; lia|]. intros f IF NK G. specialize (FR f a IF NK G). lia. }
  assert (OM' : of_module mo (train i (h ++ new) m') m).
  { destruct OM as (F & EX). split; [exact F|]. intros f l IN. specialize (EX f l IN). destruct l; cbn in *; try exact Logic.I. lia. }
  rewrite (IH (S i) _ m I OM' RD TM). cbn [bind]. rewrite L. rewrite (look_kept h (train i (h ++ new) m') m (proj2 OM) K). reflexivity.
Qed.
(** With learning of the priors switched on, lda_gibbs_fast.pyx lines 279-283, the
    sampler writes to the prior over words, which is shared: the second fold starts
    from what the first has learnt. *)
Definition set_cell {A} (h : list A) (a : nat) (x : A) : list A := firstn a h ++ [x] ++ skipn (S a) h.
Definition learn (i : nat) (h : list nat) (m : tuple (leaf nat)) : list nat :=
  match getattr m "vocabPrior" with Ok (LArr b) => set_cell h b (100 + i) | _ => h end.
Theorem C221_learned_priors_refuted : exists (h : list nat) (m : tuple (leaf nat)) x y, of_module lda_gibbs h m /\ ready lda_gibbs m /\
  (forall i h m a, getattr m "vocabPrior" <> Ok (LArr a) -> nth_error (learn i h m) a = nth_error h a \/ List.length h <= a) /\
  folds (fun _ => 0) None lda_gibbs learn 2 0 h m = Ok [x; y] /\ x <> y.
Proof.
  exists [50; 10], (combine (fields lda_gibbs) [LNum 2; LNum 3; LArr 0; LArr 1; LNone; LNone; LNum 0; LNum 0; LNum 64; LNum 0]). eexists. eexists.
  split; [|split; [|split; [|split; [reflexivity|]]]].
  - split; [reflexivity|]. intros f l I. cbn in I. repeat (destruct I as [I|I]; [injection I as <- <-; cbn; lia || exact Logic.I|]). contradiction.
  - unfold ready, lda_gibbs. cbn [sources fields]. repeat (apply Forall_cons; [first [exact Logic.I|eexists; split; [reflexivity|]; first [left; reflexivity|right; split; [reflexivity|exact Logic.I]]]|]). apply Forall_nil.
  - intros i h m a G. unfold learn. destruct (getattr m "vocabPrior") as [[| | |b]|] eqn:Q; auto. assert (NE : a <> b) by congruence.
    destruct (le_lt_dec (List.length h) a) as [|LT]; [right; assumption|left]. unfold set_cell.
    destruct (lt_dec a b) as [AB|AB].
    + rewrite nth_error_app1 by (rewrite firstn_length; lia). clear - AB. revert h b AB. induction a as [|a IH]; intros [|x h] [|b] AB; try lia; try reflexivity. cbn [firstn nth_error]. apply IH. lia.
    + rewrite nth_error_app2 by (rewrite firstn_length; lia). rewrite firstn_length. replace (Nat.min b (List.length h)) with b by lia.
      destruct (a - b) as [|d] eqn:D; [lia|]. cbn [app nth_error].
      replace a with (S b + d) by lia. clear. revert h. induction (S b) as [|k IH]; intros h; [reflexivity|]. destruct h as [|x h]; [cbn; destruct d; reflexivity|]. cbn [skipn plus nth_error]. apply IH.
  - vm_compute. discriminate.
Qed.
(** Training that changes the words of every topic, as in lda_vb_python. *)
Definition fit (i : nat) (h : list nat) (m : tuple (leaf nat)) : list nat :=
  match getattr m "wordDists" with Ok (LArr b) => map (fun '(a, x) => if Nat.eqb a b then 1000 + i else x) (combine (seq 0 (List.length h)) h) | _ => h end.
Example C221_case : tame lda_vb_python fit /\
  let m := combine (fields lda_vb_python) [LNum 2; LArr 0; LNum 9; LArr 1; LNum 1; LNum 64; LNum 0] in
  fit 0 [10; 20; 10; 20] (combine (fields lda_vb_python) [LNum 2; LArr 2; LNum 9; LArr 3; LNum 1; LNum 64; LNum 0]) = [10; 20; 10; 1000] /\
  folds (fun _ => 0) None lda_vb_python fit 3 0 [10; 20] m = Ok (repeat (look [10; 20] m) 3).
Proof.
  split; [|split; reflexivity]. intros i h m. unfold fit. destruct (getattr m "wordDists") as [[| | |b]|] eqn:Q; try (split; [lia|auto]; fail).
  split; [rewrite map_length, combine_length, seq_length; lia|]. intros a LT H.
  assert (NE : a <> b).
  { intros ->. apply (H "wordDists"); [cbn; tauto| |exact Q]. unfold kept. cbn. intuition discriminate. }
  assert (G : forall (h : list nat) s a, nth_error (map (fun '(a0, x) => if Nat.eqb a0 b then 1000 + i else x) (combine (seq s (List.length h)) h)) a =
              match nth_error h a with Some x => Some (if Nat.eqb (s + a) b then 1000 + i else x) | None => None end).
  { clear. induction h as [|x h IH]; intros s a; [destruct a; reflexivity|]. cbn [List.length seq combine map]. destruct a as [|a]; cbn [nth_error].
    - rewrite Nat.add_0_r. reflexivity.
    - rewrite IH. replace (S s + a) with (s + S a) by lia. reflexivity. }
  rewrite G. cbn [plus]. rewrite (proj2 (Nat.eqb_neq a b) NE). destruct (nth_error h a); reflexivity.
Qed.

(** ** C222 *)
Definition distribution (n : nat) (p : nat -> R) : Prop := (forall k, k < n -> (0 <= p k)%R) /\ row_sum n p = 1%R.
(** What training and queries leave in the state: shares, or counts that are not all
    zero for any document. *)
Definition positive (n : nat) (p : nat -> R) : Prop := (forall k, k < n -> (0 <= p k)%R) /\ (0 < row_sum n p)%R.
Definition holds_topics (acc : accessor) (q : tuple cell) (D K : nat) : Prop :=
  match acc with
  | Field f => exists m, getattr q f = Ok (CMat D K m) /\ forall d, d < D -> distribution K (m d)
  | NormRows f => exists m, getattr q f = Ok (CMat D K m) /\ forall d, d < D -> positive K (m d)
  | NormFirst f => exists m, getattr q f = Ok (CMat D (S K) m) /\ forall d, d < D -> positive K (m d)
  | Average f g => exists m x, getattr q f = Ok (CMat D K m) /\ getattr q g = Ok (CNum x) /\ (0 < x)%R /\
      forall d, d < D -> (forall k, k < K -> (0 <= m d k)%R) /\ row_sum K (m d) = x
  | ExpMinusSum _ | Missing => exists f m, getattr q f = Ok (CMat D K m)
  end.
Definition without_topics : list string :=
  ["ctm"; "ctm_bohning"; "lro_vb"; "sim_based_rec"; "mtm2"; "mtm3"; "stm_yv"; "stm_yv_bohning"; "stm_yv_bohning_fake_online"; "stm_uv_vec_y_bohning"].
Lemma row_sum_div n p s : row_sum n (fun k => p k / s)%R = (row_sum n p / s)%R.
Proof.
  unfold row_sum. induction (seq 0 n) as [|k l IH]; cbn [map fold_right]; [unfold Rdiv; ring|]. rewrite IH. unfold Rdiv. ring.
Qed.
Lemma shares n p s : (0 < s)%R -> (forall k, k < n -> (0 <= p k)%R) -> row_sum n p = s -> distribution n (fun k => p k / s)%R.
Proof.
  intros S P E. split; [|rewrite row_sum_div, E; field; lra]. intros k H. apply Rmult_le_pos; [apply P, H|]. left. apply Rinv_0_lt_compat, S.
Qed.
(** topicDists returns a distribution over the K topics for each of the D documents. *)
Theorem C222_distributions : forall qm q D K, In qm query_modules -> ~ In (q_name qm) without_topics -> map fst q = q_fields qm ->
  holds_topics (q_topics qm) q D K ->
  exists p, topic_dists (q_topics qm) q = Ok (CMat D K p) /\ forall d, d < D -> distribution K (p d).
Proof.
  intros qm q D K I NW _ H.
  assert (ACC : match q_topics qm with ExpMinusSum _ | Missing => False | _ => True end).
  { unfold query_modules in I. cbn [In] in I. repeat (destruct I as [<-|I]; [cbn; try exact Logic.I; exfalso; apply NW; cbn; tauto|]). contradiction. }
  destruct (q_topics qm) as [f|f|f|f g|f|]; try contradiction; cbn [holds_topics topic_dists] in *.
  - destruct H as (m & G & P). exists m. split; [exact G|exact P].
  - destruct H as (m & G & P). rewrite G. cbn [bind]. eexists. split; [reflexivity|]. intros d LT. destruct (P d LT) as (P1 & P2). apply shares; [exact P2|exact P1|reflexivity].
  - destruct H as (m & G & P). rewrite G. cbn [bind]. unfold norm_rows. cbn [Nat.sub]. rewrite Nat.sub_0_r. eexists. split; [reflexivity|].
    intros d LT. destruct (P d LT) as (P1 & P2). apply shares; [exact P2|exact P1|reflexivity].
  - destruct H as (m & x & G1 & G2 & X & P). rewrite G1. cbn [bind]. rewrite G2. cbn [bind]. eexists. split; [reflexivity|].
    intros d LT. destruct (P d LT) as (P1 & P2). apply shares; assumption.
Qed.
(** In ten modules there is no such function, or it reads a field that the state of
    a query does not have. *)
Theorem C222_unavailable_refuted : forall qm q, In qm query_modules -> In (q_name qm) without_topics -> map fst q = q_fields qm ->
  topic_dists (q_topics qm) q = Raise AttributeError.
Proof.
  intros qm q I W F.
  assert (NA : forall (t : tuple cell) f, ~ In f (map fst t) -> getattr t f = Raise AttributeError).
  { clear. induction t as [|(g, x) t IH]; intros f H; [reflexivity|]. cbn [getattr]. destruct (String.eqb_spec g f) as [->|_]; [exfalso; apply H; left; reflexivity|].
    apply IH. intros X. apply H. right. exact X. }
  unfold query_modules in I. cbn [In] in I.
  repeat (destruct I as [<-|I]; [first [reflexivity|cbn in W; exfalso; intuition discriminate|
    cbn [q_topics topic_dists]; rewrite NA by (rewrite F; cbn; intuition discriminate); reflexivity]|]). contradiction.
Qed.
Example C222_case : exists qm q, In qm query_modules /\ q_name qm = "rtm" /\ ~ In (q_name qm) without_topics /\ map fst q = q_fields qm /\ holds_topics (q_topics qm) q 2 3.
Proof.
  exists (mkQuery "rtm" ["docLens"; "topicDists"] (NormFirst "topicDists")), [("docLens", COther); ("topicDists", CMat 2 4 (fun d k => INR (1 + d + k)))].
  split; [unfold query_modules; cbn [In]; tauto|]. split; [reflexivity|]. split; [cbn; intuition discriminate|]. split; [reflexivity|].
  eexists. split; [reflexivity|]. intros d LT. split.
  - intros k H. apply pos_INR.
  - unfold row_sum. cbn [seq map fold_right]. assert (H := lt_0_INR (1 + d + 0) ltac:(lia)). assert (H1 := pos_INR (1 + d + 1)). assert (H2 := pos_INR (1 + d + 2)). lra.
Qed.

Print Assumptions C220_equal.
Print Assumptions C220_independent.
Print Assumptions C220_with_topic_model.
Print Assumptions C220_complete.
Print Assumptions C220_shared.
Print Assumptions C220_trained_cvb_refuted.
Print Assumptions C220_number_prior_refuted.
Print Assumptions C221_folds.
Print Assumptions C221_learned_priors_refuted.
Print Assumptions C222_distributions.
Print Assumptions C222_unavailable_refuted.
