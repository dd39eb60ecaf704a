(** * C54-C57, C105-C108: the text handling of the scripts. *)
From Coq Require Import Ascii String DecimalString DecimalNat DecimalFacts Arith Bool List Lia.
From Verif Require Import Base StrModel.
Import ListNotations.
Open Scope nat_scope.
Open Scope list_scope.

(** ** Characters and numbers *)
Definition digits (s : text) : Prop := Forall (fun c => is_digit c = true) s.

Lemma teqb_eq a b : teqb a b = true <-> a = b.
Proof. unfold teqb. destruct (list_eq_dec ascii_dec a b); split; congruence. Qed.

Lemma uint_digits u : digits (T (NilEmpty.string_of_uint u)).
Proof. induction u; cbn; constructor; try reflexivity; assumption. Qed.

Lemma str_digits n : digits (str n).
Proof. apply uint_digits. Qed.

Lemma T_inj s t : T s = T t -> s = t.
Proof. intros H. rewrite <- (string_of_list_ascii_of_string s), <- (string_of_list_ascii_of_string t). f_equal. exact H. Qed.

Lemma str_inj n m : str n = str m -> n = m.
Proof.
  intros H. apply T_inj in H. assert (E : Nat.to_uint n = Nat.to_uint m).
  { pose proof (NilEmpty.usu (Nat.to_uint n)) as A. pose proof (NilEmpty.usu (Nat.to_uint m)) as B. congruence. }
  rewrite <- (DecimalNat.Unsigned.of_to n), <- (DecimalNat.Unsigned.of_to m). f_equal. exact E.
Qed.

Lemma str_small n : n < 10 -> exists c, str n = [c].
Proof. intros H. do 10 (destruct n as [|n]; [eexists; reflexivity|]). lia. Qed.

Lemma str_large n : 10 <= n -> exists c d s, str n = c :: d :: s.
Proof.
  intros H. pose proof (DecimalNat.Unsigned.of_to n) as E. unfold str.
  destruct (Nat.to_uint n) as [|u|u|u|u|u|u|u|u|u|u]; [cbn in E; lia|..];
    (destruct u as [|u|u|u|u|u|u|u|u|u|u]; [cbv in E; lia|..]; do 3 eexists; reflexivity).
Qed.

Lemma str_nonempty n : str n <> [].
Proof.
  destruct (Nat.lt_ge_cases n 10) as [H|H]; [destruct (str_small n H) as (c & ->)|destruct (str_large n H) as (c & d & s & ->)]; discriminate.
Qed.

(** Two numbers, each followed by something that is not a digit. *)
Lemma digits_split a b c d x y : digits a -> digits b -> is_digit c = false -> is_digit d = false ->
  a ++ c :: x = b ++ d :: y -> a = b /\ c :: x = d :: y.
Proof.
  intros Ha. revert b. induction Ha as [|p a Hp Ha IH]; intros b Hb Hc Hd E.
  - destruct Hb as [|q b Hq Hb]; [split; [reflexivity|exact E]|]. cbn [app] in E. injection E as -> _. congruence.
  - destruct Hb as [|q b Hq Hb]; cbn [app] in E.
    + injection E as -> _. congruence.
    + injection E as -> E. destruct (IH b Hb Hc Hd E) as [-> R]. split; [reflexivity|exact R].
Qed.

(** Time stamps as made by strftime with the format of line 1227. *)
Definition is_stamp (s : text) : Prop := exists a b, s = a ++ T "_" ++ b /\ digits a /\ digits b /\ length a = 8 /\ length b = 4.

Lemma stamp_head s : is_stamp s -> exists c s', s = c :: s' /\ is_digit c = true.
Proof.
  intros (a & b & -> & Ha & _ & L & _). destruct a as [|c a]; [discriminate|]. inversion Ha; subst.
  exists c, (a ++ T "_" ++ b). split; [reflexivity|assumption].
Qed.

(** ** C55 *)
Definition lower (c : ascii) : ascii :=
  let n := nat_of_ascii c in if (65 <=? n) && (n <=? 90) then ascii_of_nat (n + 32) else c.

(** The spellings named by the documentation. *)
Definition spelling (d : np_dtype) : list string :=
  match d with
  | Float64 => ["f8"; "f64"] | Float32 => ["f4"; "f32"] | Int32 => ["i4"; "i32"] | UInt16 => ["u2"; "u16"]
  end%string.

Lemma lower_all (P : ascii -> bool) (c : ascii) :
  forallb P (map ascii_of_nat (seq 0 256)) = true -> P c = true.
Proof.
  intros H. rewrite forallb_forall in H. apply H. apply in_map_iff. exists (nat_of_ascii c).
  split; [apply ascii_nat_embedding|]. apply in_seq. pose proof (nat_ascii_bounded c). lia.
Qed.

Lemma lower_f c : lower c = "f"%char -> c = "f"%char \/ c = "F"%char.
Proof.
  intros H. pose proof (lower_all (fun c => negb (Ascii.eqb (lower c) "f") || Ascii.eqb c "f" || Ascii.eqb c "F")%char c eq_refl) as G.
  cbv beta in G. rewrite H in G. cbn [Ascii.eqb Bool.eqb negb orb] in G. apply orb_prop in G as [G|G]; apply Ascii.eqb_eq in G; auto.
Qed.
Lemma lower_i c : lower c = "i"%char -> c = "i"%char \/ c = "I"%char.
Proof.
  intros H. pose proof (lower_all (fun c => negb (Ascii.eqb (lower c) "i") || Ascii.eqb c "i" || Ascii.eqb c "I")%char c eq_refl) as G.
  cbv beta in G. rewrite H in G. cbn [Ascii.eqb Bool.eqb negb orb] in G. apply orb_prop in G as [G|G]; apply Ascii.eqb_eq in G; auto.
Qed.
Lemma lower_u c : lower c = "u"%char -> c = "u"%char \/ c = "U"%char.
Proof.
  intros H. pose proof (lower_all (fun c => negb (Ascii.eqb (lower c) "u") || Ascii.eqb c "u" || Ascii.eqb c "U")%char c eq_refl) as G.
  cbv beta in G. rewrite H in G. cbn [Ascii.eqb Bool.eqb negb orb] in G. apply orb_prop in G as [G|G]; apply Ascii.eqb_eq in G; auto.
Qed.
Lemma lower_digit c d : is_digit d = true -> lower c = d -> c = d.
Proof.
  intros Hd H. subst d.
  pose proof (lower_all (fun c => negb (is_digit (lower c)) || Ascii.eqb c (lower c)) c eq_refl) as G.
  cbv beta in G. rewrite Hd in G. cbn [negb orb] in G. apply Ascii.eqb_eq in G. exact G.
Qed.

Lemma is_one_of_In s l : is_one_of s l = true <-> In s (map T l).
Proof.
  unfold is_one_of. rewrite existsb_exists, in_map_iff. split; intros (x & A & B).
  - exists x. apply teqb_eq in B. split; congruence.
  - exists x. split; [exact B|]. apply teqb_eq. congruence.
Qed.

Ltac dtype_cases :=
  repeat match goal with
  | H : _ \/ _ |- _ => destruct H as [H|H]
  | H : False |- _ => destruct H
  | H : T _ = _ |- _ => cbn in H; subst
  end.

Theorem C55_accepted_spellings : forall s d,
  parse_dtype s = Ok d <-> In (map lower s) (map T (spelling d)).
Proof.
  intros s d. split.
  - intros H. unfold parse_dtype in H.
    destruct (is_one_of s _) eqn:E1 in H;
      [|destruct (is_one_of s _) eqn:E2 in H;
        [|destruct (is_one_of s _) eqn:E3 in H;
          [|destruct (is_one_of s _) eqn:E4 in H; [|discriminate]]]];
      injection H as <-;
      match goal with E : is_one_of s _ = true |- _ => apply is_one_of_In in E; cbn [map In] in E end;
      dtype_cases; cbn; auto.
  - intros H. destruct d; cbn [spelling map In] in H; destruct H as [H|[H|[]]]; cbn in H;
      destruct s as [|c1 [|c2 [|c3 [|]]]]; try discriminate; cbn [map] in H.
    all: first [injection H as H1 H2 H3|injection H as H1 H2].
    all: symmetry in H1, H2; try symmetry in H3.
    all: apply lower_digit in H2; [|reflexivity]; try (apply lower_digit in H3; [|reflexivity]); subst.
    all: first [apply lower_f in H1|apply lower_i in H1|apply lower_u in H1]; destruct H1 as [-> | ->]; reflexivity.
Qed.

(** Any other text is rejected. *)
Theorem C55_others_rejected : forall s,
  (forall d, ~ In (map lower s) (map T (spelling d))) <-> parse_dtype s = Raise ValueError.
Proof.
  intros s. split.
  - intros H. destruct (parse_dtype s) as [d|e] eqn:E; [exfalso; apply (H d), C55_accepted_spellings, E|].
    unfold parse_dtype in E. repeat (destruct (is_one_of s _) in E; [discriminate|]). congruence.
  - intros H d Hd. apply C55_accepted_spellings in Hd. congruence.
Qed.

(** A pair: the text before and after the colon; both are the same without one. *)
Theorem C55_one_or_two_types : forall a b x y,
  ~ In ":"%char a -> ~ In ":"%char b -> parse_dtype (strip a) = Ok x -> parse_dtype (strip b) = Ok y ->
  parse_dtypes a = Ok (x, x) /\ parse_dtypes (a ++ T ":" ++ b) = Ok (x, y).
Proof.
  assert (S : forall a, ~ In ":"%char a -> split_on ":"%char a = [a]).
  { induction a as [|c a IH]; intros H; [reflexivity|]. cbn [split_on].
    destruct (ascii_dec c ":") as [->|_]; [exfalso; apply H; left; reflexivity|]. rewrite IH; [reflexivity|].
    intros X. apply H. right. exact X. }
  assert (S2 : forall a b, ~ In ":"%char a -> split_on ":"%char (a ++ T ":" ++ b) = a :: split_on ":"%char b).
  { induction a as [|c a IH]; intros b H; [reflexivity|]. cbn [split_on app].
    destruct (ascii_dec c ":") as [->|_]; [exfalso; apply H; left; reflexivity|]. rewrite IH; [reflexivity|].
    intros X. apply H. right. exact X. }
  intros a b x y Ha Hb Hx Hy. unfold parse_dtypes. rewrite S2, !S by assumption. cbn [map]. rewrite Hx, Hy. split; reflexivity.
Qed.

(** More than two types are not rejected: the third part is not looked at. *)
Theorem C55_more_types_rejected_refuted : exists s, parse_dtypes (T "f4:i4:" ++ s) = Ok (Float32, Int32) /\ parse_dtype s = Raise ValueError.
Proof. exists (T "nonsense"). split; reflexivity. Qed.

Example C55_example : parse_dtype (T "F64") = Ok Float64 /\ parse_dtype (T "f16") = Raise ValueError /\
  parse_dtypes (T "i4 : F8") = Ok (Int32, Float64).
Proof. repeat split; reflexivity. Qed.

(** ** C54 *)
Lemma match_lits a p s : re_match (lits a ++ p) (a ++ s) = re_match p s.
Proof. induction a as [|c a IH]; [reflexivity|]. cbn. destruct (ascii_dec c c); [exact IH|congruence]. Qed.

Lemma match_lits_inv a p s : re_match (lits a ++ p) s = true -> exists t, s = a ++ t /\ re_match p t = true.
Proof.
  revert s. induction a as [|c a IH]; intros s H; [exists s; split; [reflexivity|exact H]|].
  destruct s as [|d s]; [discriminate|]. cbn [lits map app re_match item_ok] in H.
  destruct (ascii_dec c d) as [->|]; [|discriminate]. destruct (IH s H) as (t & -> & Ht). exists t. split; [reflexivity|exact Ht].
Qed.

Lemma match_digits a : digits a -> forall n p s, length a = n -> re_match (repeat Digit n ++ p) (a ++ s) = re_match p s.
Proof.
  induction 1 as [|c a Hc Ha IH]; intros n p s <-; [reflexivity|]. cbn [length repeat app re_match item_ok]. rewrite Hc. apply IH. reflexivity.
Qed.

(** A one-digit fold, a stamp and the extension match the end of the pattern. *)
Lemma match_stamp f stamp : f < 10 -> is_stamp stamp -> re_match stamp_items (str f ++ T "_" ++ stamp ++ T ".pkl") = true.
Proof.
  intros Hf (a & b & -> & Ha & Hb & La & Lb). unfold stamp_items.
  destruct (str_small f Hf) as (c & E). pose proof (str_digits f) as D. rewrite E in *. inversion D; subst.
  change ([Digit] ++ ?x) with (repeat Digit 1 ++ x). rewrite match_digits by (assumption || reflexivity).
  rewrite match_lits. rewrite <- app_assoc, match_digits by assumption.
  rewrite <- app_assoc, match_lits, match_digits by assumption. reflexivity.
Qed.

Lemma no_match_stamp f stamp : 10 <= f -> re_match stamp_items (str f ++ T "_" ++ stamp ++ T ".pkl") = false.
Proof.
  intros Hf. destruct (str_large f Hf) as (c & d & s & E). pose proof (str_digits f) as D. rewrite E in *.
  inversion D as [|? ? Hc D']; subst. inversion D' as [|? ? Hd ?]; subst. unfold stamp_items. cbn [app re_match item_ok].
  rewrite Hc. cbn [andb lits map T list_ascii_of_string app re_match item_ok].
  destruct (ascii_dec "_" d) as [<-|]; [discriminate|reflexivity].
Qed.

(** The four models for which reports exist: ctm.py, ctm_bohning.py, stm_yv.py and
    stm_yv_bohning.py (MODEL_NAME, lines 50, 56, 44, 44); the first two have no
    attribute P. *)
Definition bound_name (b : bool) : text := if b then T "bohning" else T "bouchard".
Definition ctm_name (b : bool) : text := T "ctm/" ++ bound_name b.
Definition stm_name (b : bool) : text := T "stm-yv/" ++ bound_name b.

Lemma stm_file_name b K p f stamp :
  saved_name (stm_name b) K (Some p) f stamp =
  (T "stm_yv_" ++ bound_name b ++ T "_k_" ++ str K ++ T "_p_" ++ str p ++ T "_fold_") ++ str f ++ T "_" ++ stamp ++ T ".pkl".
Proof. unfold saved_name, file_name. destruct b; rewrite <- !app_assoc; cbn -[str]; rewrite <- ?app_assoc; reflexivity. Qed.

Lemma ctm_file_name b K f stamp :
  saved_name (ctm_name b) K None f stamp =
  (T "ctm_" ++ bound_name b ++ T "_k_" ++ str K ++ T "_p_0_fold_") ++ str f ++ T "_" ++ stamp ++ T ".pkl".
Proof. unfold saved_name, file_name. destruct b; rewrite <- !app_assoc; cbn -[str]; rewrite <- ?app_assoc; reflexivity. Qed.

(** Side-topic models: found if and only if the fold has one digit. *)
Theorem C54_side_topic_files : forall b K p f stamp, is_stamp stamp ->
  re_match (stm_pattern (bound_name b) K p) (saved_name (stm_name b) K (Some p) f stamp) = (f <? 10).
Proof.
  intros b K p f stamp Hs. rewrite stm_file_name. unfold stm_pattern. rewrite match_lits.
  destruct (Nat.ltb_spec f 10); [apply match_stamp; assumption|apply no_match_stamp; assumption].
Qed.

(** No report looks at the files of another configuration. *)
Theorem C54_side_topic_files_of_others : forall b K p f stamp b' K' p', is_stamp stamp ->
  re_match (stm_pattern (bound_name b') K' p') (saved_name (stm_name b) K (Some p) f stamp) = true ->
  b' = b /\ K' = K /\ p' = p.
Proof.
  intros b K p f stamp b' K' p' Hs H. rewrite stm_file_name in H. unfold stm_pattern in H.
  apply match_lits_inv in H as (t & E & _). rewrite <- !app_assoc in E. apply app_inv_head in E.
  assert (Hb : b' = b) by (destruct b, b'; try reflexivity; discriminate E). subst b'. apply app_inv_head in E.
  apply app_inv_head in E. apply digits_split in E as [EK E]; try apply str_digits; try reflexivity.
  apply str_inj in EK. cbn [app T list_ascii_of_string] in E. injection E as E.
  apply digits_split in E as [Ep _]; try apply str_digits; try reflexivity. apply str_inj in Ep.
  repeat split; congruence.
Qed.

(** Correlated topic models: never found, because the saved name has a part
    "_p_0" which the pattern lacks. *)
Theorem C54_correlated_files_never_found : forall b K f stamp b' K',
  re_match (ctm_pattern (bound_name b') K') (saved_name (ctm_name b) K None f stamp) = false.
Proof.
  intros b K f stamp b' K'. destruct (re_match _ _) eqn:H; [|reflexivity]. exfalso.
  rewrite ctm_file_name in H. unfold ctm_pattern in H.
  apply match_lits_inv in H as (t & E & _). rewrite <- !app_assoc in E. apply app_inv_head in E.
  assert (Hb : b' = b) by (destruct b, b'; try reflexivity; discriminate E). subst b'. apply app_inv_head in E.
  apply app_inv_head in E. apply digits_split in E as [EK E]; try apply str_digits; try reflexivity.
  discriminate E.
Qed.

Theorem C54_saved_files_are_found_refuted : exists b K f stamp, is_stamp stamp /\ f < 10 /\
  re_match (ctm_pattern (bound_name b) K) (saved_name (ctm_name b) K None f stamp) = false.
Proof.
  exists true, 5, 0, (T "20150131_0930"). split; [|split; [lia|apply C54_correlated_files_never_found]].
  exists (T "20150131"), (T "0930"). repeat split; repeat constructor.
Qed.

(** The other naming function leaves the part out, and its files would be found. *)
Theorem C54_name_from_model_found : forall b K f stamp, is_stamp stamp -> f < 10 ->
  exists s, name_from_model (ctm_name b) K None (Some f) stamp = Ok s /\
    re_match (ctm_pattern (bound_name b) K) s = true.
Proof.
  intros b K f stamp Hs Hf.
  exists ((T "ctm_" ++ bound_name b ++ T "_k_" ++ str K ++ T "_fold_") ++ str f ++ T "_" ++ stamp ++ T ".pkl"). split.
  - unfold name_from_model, file_name. destruct b; rewrite <- ?app_assoc; cbn -[str]; rewrite <- ?app_assoc; reflexivity.
  - unfold ctm_pattern. rewrite match_lits. apply match_stamp; assumption.
Qed.

Example C54_example :
  string_of_list_ascii (saved_name (stm_name true) 10 (Some 50) 3 (T "20150131_0930")) = "stm_yv_bohning_k_10_p_50_fold_3_20150131_0930.pkl"%string /\
  string_of_list_ascii (saved_name (ctm_name true) 10 None 3 (T "20150131_0930")) = "ctm_bohning_k_10_p_0_fold_3_20150131_0930.pkl"%string.
Proof. split; reflexivity. Qed.

(** ** C105: file names identify the configuration of a model. *)
Theorem C105_names_differ : forall name K P f stamp K' P' f' stamp',
  is_stamp stamp -> is_stamp stamp' ->
  file_name name K P f stamp = file_name name K' P' f' stamp' ->
  K = K' /\ P = P' /\ f = f' /\ stamp = stamp'.
Proof.
  intros name K P f stamp K' P' f' stamp' Hs Hs' H. unfold file_name in H.
  apply app_inv_head in H. rewrite <- !app_assoc in H. apply app_inv_head in H. apply app_inv_head in H.
  destruct (stamp_head stamp Hs) as (c & s & Es & Hc). destruct (stamp_head stamp' Hs') as (c' & s' & Es' & Hc').
  assert (F : forall X Y : text, match f with None => [] | Some f => T "fold_" ++ str f ++ T "_" end ++ stamp ++ X =
                       match f' with None => [] | Some f => T "fold_" ++ str f ++ T "_" end ++ stamp' ++ X -> f = f' /\ stamp = stamp').
  { intros X _ E. destruct f as [f|], f' as [f'|].
    - rewrite <- !app_assoc in E. apply app_inv_head in E.
      apply digits_split in E as [Ef E]; try apply str_digits; try reflexivity.
      apply str_inj in Ef. injection E as E. apply app_inv_tail in E. split; congruence.
    - exfalso. rewrite Es' in E. cbn [app T list_ascii_of_string] in E. injection E as E _. subst c'. discriminate.
    - exfalso. rewrite Es in E. cbn [app T list_ascii_of_string] in E. injection E as E _. subst c. discriminate.
    - cbn [app] in E. apply app_inv_tail in E. split; congruence. }
  assert (Hd : forall c, is_digit c = true -> c <> "p"%char /\ c <> "f"%char) by (intros x Hx; split; intros ->; discriminate).
  destruct P as [p|], P' as [p'|].
  - rewrite <- !app_assoc in H. apply digits_split in H as [EK E]; try apply str_digits; try reflexivity.
    apply str_inj in EK. cbn [app T list_ascii_of_string] in E. injection E as E.
    apply digits_split in E as [Ep E]; try apply str_digits; try reflexivity. apply str_inj in Ep. injection E as E.
    destruct (F (T ".pkl") [] E) as [Ef Est]. split; [exact EK|]. split; [congruence|]. split; assumption.
  - exfalso. rewrite <- !app_assoc in H. cbn [app] in H. apply digits_split in H as [EK E]; try apply str_digits; try reflexivity.
    cbn [app T list_ascii_of_string] in E. injection E as E. destruct f' as [f'|]; [discriminate E|].
    rewrite Es' in E. cbn [app] in E. injection E as E _. destruct (Hd c' Hc'). congruence.
  - exfalso. rewrite <- !app_assoc in H. cbn [app] in H. apply digits_split in H as [EK E]; try apply str_digits; try reflexivity.
    cbn [app T list_ascii_of_string] in E. injection E as E. destruct f as [f|]; [discriminate E|].
    rewrite Es in E. cbn [app] in E. injection E as E _. destruct (Hd c Hc). congruence.
  - cbn [app] in H. apply digits_split in H as [EK E]; try apply str_digits; try reflexivity. apply str_inj in EK.
    cbn [app T list_ascii_of_string] in E. injection E as E. destruct (F (T ".pkl") [] E) as [Ef Est]. split; [exact EK|]. split; [congruence|]. split; assumption.
Qed.

(** Names of different models may coincide. *)
Theorem C105_different_models_differ_refuted : exists name name' K P f stamp, is_stamp stamp /\ name <> name' /\
  file_name name K P f stamp = file_name name' K P f stamp.
Proof.
  exists (T "stm-yv/bohning"), (T "stm/yv-bohning"), 5, (Some 3), (Some 0), (T "20150131_0930").
  split; [exists (T "20150131"), (T "0930"); repeat split; repeat constructor|]. split; [discriminate|reflexivity].
Qed.

Example C105_example : file_name (T "lda/vb") 12 (Some 0) (Some 1) (T "20150131_0930") <> file_name (T "lda/vb") 1 (Some 20) (Some 1) (T "20150131_0930").
Proof. discriminate. Qed.

(** ** C106: the report generator's --model option. *)
Definition documented_models : list text := map T ["ctm_bouchard"; "ctm_bohning"; "stm_yv_bouchard"; "stm_yv_bohning"]%string.

Theorem C106_documented_models_all_rejected : forall m dataset, In m documented_models ->
  choose_report m dataset = Raise ValueError.
Proof. intros m dataset H. cbn in H. destruct H as [<-|[<-|[<-|[<-|[]]]]]; reflexivity. Qed.

Theorem C106_documented_models_accepted_refuted : exists m, In m documented_models /\
  forall dataset, choose_report m dataset = Raise ValueError.
Proof. exists (T "ctm_bohning"). split; [right; left; reflexivity|]. intros. apply C106_documented_models_all_rejected. right; left; reflexivity. Qed.

(** Exactly these spellings are accepted. *)
Theorem C106_accepted_models : forall m dataset r,
  choose_report m dataset = Ok r <->
  (dataset = T "tweets" /\ ((m = T "ctm" /\ r = (CtmReport, [T "bouchard"; T "bohning"])) \/
     (m = T "ctmbohning" /\ r = (CtmReport, [T "bohning"])) \/ (m = T "ctmbouchard" /\ r = (CtmReport, [T "bouchard"])))) \/
  (m = T "stm_yv" /\ r = (StmReport, [T "bouchard"; T "bohning"])) \/
  (m = T "stm_yvbohning" /\ r = (StmReport, [T "bohning"])) \/ (m = T "stm_yvbouchard" /\ r = (StmReport, [T "bouchard"])).
Proof.
  assert (EW : forall m s, ends_with m s = true -> m = firstn (length m - length s) m ++ s).
  { intros m s H. unfold ends_with in H. apply andb_prop in H as [_ H]. apply teqb_eq in H.
    rewrite <- H at 2. symmetry. apply firstn_skipn. }
  intros m dataset r. split.
  - intros H. unfold choose_report in H.
    destruct (ends_with m (T "bohning")) eqn:E1; [|destruct (ends_with m (T "bouchard")) eqn:E2].
    + apply EW in E1. destruct (teqb _ (T "ctm")) eqn:C in H.
      * apply teqb_eq in C. destruct (teqb dataset (T "tweets")) eqn:Dt; [|discriminate]. apply teqb_eq in Dt.
        injection H as <-. left. split; [exact Dt|]. right. left. split; [|reflexivity]. rewrite E1. cbn [length T list_ascii_of_string] in *. rewrite C. reflexivity.
      * destruct (teqb _ (T "stm_yv")) eqn:C2 in H; [|discriminate]. apply teqb_eq in C2.
        injection H as <-. right. right. left. split; [|reflexivity]. rewrite E1. cbn [length T list_ascii_of_string] in *. rewrite C2. reflexivity.
    + apply EW in E2. destruct (teqb _ (T "ctm")) eqn:C in H.
      * apply teqb_eq in C. destruct (teqb dataset (T "tweets")) eqn:Dt; [|discriminate]. apply teqb_eq in Dt.
        injection H as <-. left. split; [exact Dt|]. right. right. split; [|reflexivity]. rewrite E2. cbn [length T list_ascii_of_string] in *. rewrite C. reflexivity.
      * destruct (teqb _ (T "stm_yv")) eqn:C2 in H; [|discriminate]. apply teqb_eq in C2.
        injection H as <-. right. right. right. split; [|reflexivity]. rewrite E2. cbn [length T list_ascii_of_string] in *. rewrite C2. reflexivity.
    + destruct (teqb m (T "ctm")) eqn:C.
      * apply teqb_eq in C. destruct (teqb dataset (T "tweets")) eqn:Dt; [|discriminate]. apply teqb_eq in Dt.
        injection H as <-. left. auto.
      * destruct (teqb m (T "stm_yv")) eqn:C2; [|discriminate]. apply teqb_eq in C2. injection H as <-. right. auto.
  - intros [[-> H]|H].
    + destruct H as [[-> ->]|[[-> ->]|[-> ->]]]; reflexivity.
    + destruct H as [[-> ->]|[[-> ->]|[-> ->]]]; reflexivity.
Qed.

(** ** C56.  Reading a quoted cell by the usual rules: two quotes stand for one,
    a single one ends the cell. *)
Inductive reads_as : text -> text -> Prop :=
| r_end : reads_as [quote] []
| r_quote s v : reads_as s v -> reads_as (quote :: quote :: s) (quote :: v)
| r_char c s v : c <> quote -> reads_as s v -> reads_as (c :: s) (c :: v).
Definition cell_reads_as (s v : text) : Prop := exists s', s = quote :: s' /\ reads_as s' v.

Definition double_quotes (s : text) : text := flat_map (fun c => if ascii_dec c quote then [quote; quote] else [c]) s.

Lemma reads_fun s v w : reads_as s v -> reads_as s w -> v = w.
Proof.
  intros H. revert w. induction H as [|s v H IH|c s v Hc H IH]; intros w Hw; inversion Hw; subst; try congruence;
    try (f_equal; apply IH; assumption);
    match goal with X : reads_as [] _ |- _ => inversion X end.
Qed.

Lemma replace1_app c r a b : replace1 c r (a ++ b) = replace1 c r a ++ replace1 c r b.
Proof. unfold replace1. apply flat_map_app. Qed.

(** What is read back has every quotation mark doubled. *)
Theorem C56_reads_back_with_doubled_quotes : forall s, cell_reads_as (quote_text s) (double_quotes s).
Proof.
  intros s. unfold quote_text. eexists. split; [reflexivity|]. induction s as [|c s IH]; [constructor|].
  unfold double_quotes, replace1 in *. cbn [flat_map].
  destruct (ascii_dec c quote) as [->|Hc]; cbn [app flat_map].
  - destruct (ascii_dec quote quote); [|congruence]. cbn [app]. apply r_quote, r_quote, IH.
  - destruct (ascii_dec c quote); [congruence|]. cbn [app]. apply r_char; [exact Hc|exact IH].
Qed.

(** So text round-trips exactly if it has no quotation mark. *)
Theorem C56_round_trip_iff_no_quote : forall s, cell_reads_as (quote_text s) s <-> ~ In quote s.
Proof.
  intros s. split.
  - intros (s' & E & H) Hq. destruct (C56_reads_back_with_doubled_quotes s) as (s'' & E' & H'). rewrite E in E'. injection E' as <-.
    pose proof (reads_fun _ _ _ H H') as X. clear - Hq X.
    assert (L : length s < length (double_quotes s)).
    { clear X. assert (G : forall l, length l <= length (double_quotes l)).
      { unfold double_quotes. induction l as [|c l IH]; cbn [flat_map length]; [lia|]. rewrite app_length. destruct (ascii_dec c quote); cbn [length]; lia. }
      induction s as [|c s IH]; [destruct Hq|]. unfold double_quotes in *. cbn [flat_map]. rewrite app_length. destruct Hq as [->|Hq].
      - destruct (ascii_dec quote quote); [|congruence]. specialize (G s). cbn [length]. lia.
      - specialize (IH Hq). destruct (ascii_dec c quote); cbn [length]; lia. }
    rewrite <- X in L. lia.
  - intros Hq. pose proof (C56_reads_back_with_doubled_quotes s) as H. replace (double_quotes s) with s in H; [exact H|].
    clear H. induction s as [|c s IH]; [reflexivity|]. unfold double_quotes. cbn [flat_map].
    destruct (ascii_dec c quote) as [->|]; [exfalso; apply Hq; left; reflexivity|]. cbn [app]. f_equal. apply IH.
    intros X. apply Hq. right. exact X.
Qed.

Theorem C56_round_trip_refuted : exists s, ~ cell_reads_as (quote_text s) s.
Proof. exists [quote]. intros H. apply C56_round_trip_iff_no_quote in H. apply H. left. reflexivity. Qed.

Example C56_example : string_of_list_ascii (quote_text (T "a ""b"" c")) = """a """"""""b"""""""" c"""%string /\
  cell_reads_as (quote_text (T "LDA (VB)")) (T "LDA (VB)").
Proof. split; [reflexivity|]. apply C56_round_trip_iff_no_quote. intros H. cbv in H. repeat (destruct H as [H|H]; [discriminate H|]). exact H. Qed.

(** ** C57.  [outside s o]: [s] is balanced and [o] is what is outside brackets. *)
Inductive outside : text -> text -> Prop :=
| o_nil : outside [] []
| o_char c s o : c <> "("%char -> c <> ")"%char -> outside s o -> outside (c :: s) (c :: o)
| o_group i x s o : outside i x -> outside s o -> outside ("("%char :: i ++ ")"%char :: s) o.

Lemma skip_group i x : outside i x -> forall n s, eliminate_from (S n) (i ++ s) = eliminate_from (S n) s.
Proof.
  induction 1 as [|c i o H1 H2 H IH|i x s o H IH H' IH']; intros n r; [reflexivity| |].
  - cbn [app eliminate_from]. destruct (ascii_dec c ")"); [congruence|]. destruct (ascii_dec c "("); [congruence|]. apply IH.
  - cbn [app eliminate_from]. destruct (ascii_dec "(" ")"); [discriminate|]. destruct (ascii_dec "(" "("); [|congruence].
    rewrite <- app_assoc. rewrite IH. cbn [app eliminate_from]. destruct (ascii_dec ")" ")"); [|congruence]. apply IH'.
Qed.

Theorem C57_balanced_text : forall s o, outside s o -> eliminate_parentheses s = o.
Proof.
  unfold eliminate_parentheses. induction 1 as [|c i o H1 H2 H IH|i x s o H IH H' IH']; [reflexivity| |].
  - cbn [eliminate_from]. destruct (ascii_dec c "("); [congruence|]. f_equal. exact IH.
  - cbn [eliminate_from]. destruct (ascii_dec "(" "("); [|congruence]. rewrite (skip_group i x H 0). cbn [eliminate_from].
    destruct (ascii_dec ")" ")"); [|congruence]. exact IH'.
Qed.

Lemma no_open n s : ~ In "("%char (eliminate_from n s).
Proof.
  revert n. induction s as [|c s IH]; intros n; [intros []|]. cbn [eliminate_from]. destruct n as [|n].
  - destruct (ascii_dec c "("); [apply IH|]. intros [->|H]; [congruence|]. exact (IH 0 H).
  - destruct (ascii_dec c ")"); [apply IH|]. destruct (ascii_dec c "("); apply IH.
Qed.

Lemma no_open_id s : ~ In "("%char s -> eliminate_from 0 s = s.
Proof.
  induction s as [|c s IH]; intros H; [reflexivity|]. cbn [eliminate_from]. destruct (ascii_dec c "(") as [->|]; [exfalso; apply H; left; reflexivity|].
  f_equal. apply IH. intros X. apply H. right. exact X.
Qed.

(** For any text, balanced or not. *)
Theorem C57_any_text : forall s,
  ~ In "("%char (eliminate_parentheses s) /\ eliminate_parentheses (eliminate_parentheses s) = eliminate_parentheses s.
Proof. intros s. split; [apply no_open|]. apply no_open_id, no_open. Qed.

(** The part before a bracket that is never closed is kept, the rest is lost; a
    closing bracket without an opening one is kept. *)
Theorem C57_unbalanced_text : forall s o t x, outside s o -> outside t x ->
  eliminate_parentheses (s ++ "("%char :: t) = o /\ eliminate_parentheses (s ++ ")"%char :: t) = o ++ ")"%char :: x.
Proof.
  assert (P : forall s o, outside s o -> forall r, eliminate_from 0 (s ++ r) = o ++ eliminate_from 0 r).
  { induction 1 as [|c i o H1 H2 H IH|i x s o H IH H' IH']; intros r; [reflexivity| |].
    - cbn [app eliminate_from]. destruct (ascii_dec c "("); [congruence|]. f_equal. apply IH.
    - cbn [app eliminate_from]. destruct (ascii_dec "(" "("); [|congruence]. rewrite <- app_assoc, (skip_group i x H 0). cbn [app eliminate_from].
      destruct (ascii_dec ")" ")"); [|congruence]. apply IH'. }
  intros s o t x Hs Ht. unfold eliminate_parentheses. rewrite !(P s o Hs). cbn [eliminate_from].
  destruct (ascii_dec "(" "("); [|congruence]. destruct (ascii_dec ")" "("); [discriminate|]. split.
  - rewrite <- (app_nil_r t), (skip_group t x Ht 0). cbn [eliminate_from]. apply app_nil_r.
  - f_equal. f_equal. apply (C57_balanced_text t x Ht).
Qed.

Example C57_example : eliminate_parentheses (T "A. Smith (Univ. (X)), B. Jones") = T "A. Smith , B. Jones".
Proof. reflexivity. Qed.
Example C57_case : outside (T "a(b(c))d") (T "ad").
Proof.
  apply o_char; [discriminate|discriminate|]. apply (o_group (T "b(c)") (T "b") (T "d")).
  - apply o_char; [discriminate|discriminate|]. apply (o_group (T "c") (T "c") []); repeat constructor; discriminate.
  - repeat constructor; discriminate.
Qed.

(** ** C107: fields of a metadata record.  A field ends at the first closing
    brace, and what is between is the title with braces turned to brackets. *)
Theorem C107_field_ends_at_first_brace : forall t,
  ~ In "{"%char (strip_braces t) /\ ~ In "}"%char (strip_braces t) /\ length (strip_braces t) = length t /\
  (forall i c, nth_error t i = Some c -> c <> "{"%char -> c <> "}"%char -> nth_error (strip_braces t) i = Some c).
Proof.
  intros t. unfold strip_braces. split; [|split; [|split; [apply map_length|]]].
  - intros H. apply in_map_iff in H as (c & E & _). destruct (ascii_dec c "{"); [discriminate|]. destruct (ascii_dec c "}"); [discriminate|congruence].
  - intros H. apply in_map_iff in H as (c & E & _). destruct (ascii_dec c "{"); [discriminate|]. destruct (ascii_dec c "}"); [discriminate|congruence].
  - intros i c H H1 H2. rewrite nth_error_map, H. cbn. destruct (ascii_dec c "{"); [congruence|]. destruct (ascii_dec c "}"); [congruence|reflexivity].
Qed.

Theorem C107_text_without_braces_kept : forall t, ~ In "{"%char t -> ~ In "}"%char t ->
  title_field t = T "title={" ++ t ++ T "}".
Proof.
  intros t H1 H2. unfold title_field. f_equal. f_equal. unfold strip_braces. rewrite <- (map_id t) at 2. apply map_ext_in.
  intros c Hc. destruct (ascii_dec c "{"); [congruence|]. destruct (ascii_dec c "}"); [congruence|reflexivity].
Qed.

Example C107_example : title_field (T "On {SU(2)}") = T "title={On (SU(2))}".
Proof. reflexivity. Qed.

(** ** C108: the feature mask option, a list of name:index pairs. *)
Definition plain (s : text) : Prop := ~ In ":"%char s /\ ~ In ","%char s.
Fixpoint join (l : list text) : text :=
  match l with [] => [] | [a] => a | a :: r => a ++ T "," ++ join r end.
Definition show_pair (p : text * nat) : text := fst p ++ T ":" ++ str (snd p).

Lemma split_plain c a : ~ In c a -> split_on c a = [a].
Proof.
  induction a as [|x a IH]; intros H; [reflexivity|]. cbn [split_on].
  destruct (ascii_dec x c) as [->|_]; [exfalso; apply H; left; reflexivity|]. rewrite IH; [reflexivity|].
  intros X. apply H. right. exact X.
Qed.
Lemma split_sep c a b : ~ In c a -> split_on c (a ++ c :: b) = a :: split_on c b.
Proof.
  induction a as [|x a IH]; intros H; cbn [split_on app].
  - destruct (ascii_dec c c); [reflexivity|congruence].
  - destruct (ascii_dec x c) as [->|_]; [exfalso; apply H; left; reflexivity|]. rewrite IH; [reflexivity|].
    intros X. apply H. right. exact X.
Qed.

Lemma digits_no c s : digits s -> is_digit c = false -> ~ In c s.
Proof. intros H Hc X. unfold digits in H. rewrite Forall_forall in H. specialize (H c X). congruence. Qed.

Theorem C108_mask_read_back : forall to_int (l : list (text * nat)), l <> [] ->
  (forall n, to_int (str n) = Ok n) -> Forall (fun p => plain (fst p)) l ->
  parse_features_mask to_int (Some (join (map show_pair l))) = Ok (Some l).
Proof.
  intros to_int l Hne Hi HF. unfold parse_features_mask.
  assert (N : forall p, plain (fst p) -> ~ In ","%char (show_pair p)).
  { intros [a n] [_ H] X. unfold show_pair in X. cbn [fst snd] in *. apply in_app_or in X as [X|X]; [contradiction|].
    apply in_app_or in X as [[X|[]]|X]; [discriminate|]. revert X. apply digits_no; [apply str_digits|reflexivity]. }
  assert (S : split_on ","%char (join (map show_pair l)) = map show_pair l).
  { clear Hi. induction HF as [|p l Hp HF IH]; [congruence|]. destruct l as [|q l].
    - cbn [map join]. apply split_plain, N, Hp.
    - cbn [map join] in *. change (T "," ++ ?x) with (","%char :: x). rewrite split_sep by (apply N, Hp). f_equal. apply IH. discriminate. }
  rewrite S. clear S Hne.
  match goal with |- bind (mapM ?f _) _ = _ => assert (G : mapM f (map show_pair l) = Ok l) end; [|rewrite G; reflexivity].
  induction HF as [|[a n] l [Hp _] HF IH]; [reflexivity|]. cbn [map mapM]. unfold show_pair at 1 2. cbn [fst snd] in *.
  change (T ":" ++ str n) with (":"%char :: str n). rewrite split_sep by exact Hp.
  rewrite (split_plain _ (str n)) by (apply digits_no; [apply str_digits|reflexivity]).
  cbn [get_ nth_error bind]. rewrite Hi. cbn [bind]. rewrite IH. reflexivity.
Qed.

(** A part without a colon is an error. *)
Theorem C108_missing_index_rejected : forall to_int a, plain a ->
  parse_features_mask to_int (Some a) = Raise IndexError.
Proof. intros to_int a [H1 H2]. unfold parse_features_mask. rewrite (split_plain ","%char a H2). cbn [mapM]. rewrite (split_plain ":"%char a H1). reflexivity. Qed.

Example C108_example :
  let to_int s := if teqb s (T "12") then Ok 12 else if teqb s (T "3") then Ok 3 else Raise ValueError in
  parse_features_mask to_int (Some (T "year:12,venue:3")) = Ok (Some [(T "year", 12); (T "venue", 3)]).
Proof. reflexivity. Qed.

Print Assumptions C55_accepted_spellings.
Print Assumptions C55_others_rejected.
Print Assumptions C55_one_or_two_types.
Print Assumptions C55_more_types_rejected_refuted.
Print Assumptions C54_side_topic_files.
Print Assumptions C54_side_topic_files_of_others.
Print Assumptions C54_correlated_files_never_found.
Print Assumptions C54_saved_files_are_found_refuted.
Print Assumptions C54_name_from_model_found.
Print Assumptions C105_names_differ.
Print Assumptions C105_different_models_differ_refuted.
Print Assumptions C106_documented_models_all_rejected.
Print Assumptions C106_documented_models_accepted_refuted.
Print Assumptions C106_accepted_models.
Print Assumptions C56_reads_back_with_doubled_quotes.
Print Assumptions C56_round_trip_iff_no_quote.
Print Assumptions C56_round_trip_refuted.
Print Assumptions C57_balanced_text.
Print Assumptions C57_any_text.
Print Assumptions C57_unbalanced_text.
Print Assumptions C107_field_ends_at_first_brace.
Print Assumptions C107_text_without_braces_kept.
Print Assumptions C108_mask_read_back.
Print Assumptions C108_missing_index_rejected.
