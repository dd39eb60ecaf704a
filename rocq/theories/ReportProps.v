(** * C249-C251: the reports made from templates. *)
From Coq Require Import Ascii String Arith Bool List Lia.
From Verif Require Import Base StrModel StrProps ReportModel.
Import ListNotations.
Open Scope nat_scope.
Open Scope list_scope.

(** ** C249: templates *)
(** A template is made of characters, doubled dollars and names, with or without braces. *)
Inductive piece := PChar (c : ascii) | PDollar | PName (n : text) | PBraced (n : text).
Definition written (p : piece) : text :=
  match p with PChar c => [c] | PDollar => T "$$" | PName n => T "$" ++ n | PBraced n => T "${" ++ n ++ T "}" end.
Definition render (ps : list piece) : text := flat_map written ps.
Definition is_name (n : text) : Prop :=
  match n with [] => False | c :: r => name_start c = true /\ Forall (fun c => name_char c = true) r end.
(** A name without braces ends where the text does not go on with a letter, a digit or an underscore. *)
Definition ends_here (s : text) : Prop := match s with [] => True | c :: _ => name_char c = false end.
Fixpoint template (ps : list piece) : Prop :=
  match ps with
  | [] => True
  | PChar c :: r => c <> "$"%char /\ template r
  | PDollar :: r => template r
  | PName n :: r => is_name n /\ ends_here (render r) /\ template r
  | PBraced n :: r => is_name n /\ template r
  end.
(** What it stands for. *)
Definition names_of (ps : list piece) : list text :=
  flat_map (fun p => match p with PName n | PBraced n => [n] | _ => [] end) ps.
Definition filled (value : text -> text) (ps : list piece) : text :=
  flat_map (fun p => match p with PChar c => [c] | PDollar => T "$" | PName n | PBraced n => value n end) ps.

Lemma span_app p n s : Forall (fun c => p c = true) n -> match s with [] => True | c :: _ => p c = false end -> span p (n ++ s) = (n, s).
Proof.
  intros H Hs. induction H as [|c n Hc Hn IH]; cbn [app].
  - destruct s as [|c s]; [reflexivity|]. cbn [span]. rewrite Hs. reflexivity.
  - cbn [span]. rewrite Hc, IH. reflexivity.
Qed.
Lemma span_inv p s : forall a b, span p s = (a, b) -> s = a ++ b /\ Forall (fun c => p c = true) a /\ match b with [] => True | c :: _ => p c = false end.
Proof.
  induction s as [|c s IH]; intros a b E; cbn [span] in E.
  - injection E as <- <-. repeat split; constructor.
  - destruct (p c) eqn:Ec.
    + destruct (span p s) as [a' b'] eqn:Es. injection E as <- <-. destruct (IH _ _ eq_refl) as (-> & F & Hb).
      split; [reflexivity|]. split; [constructor; assumption|exact Hb].
    + injection E as <- <-. split; [reflexivity|]. split; [constructor|exact Ec].
Qed.
Lemma start_char c : name_start c = true -> name_char c = true.
Proof. intros H. unfold name_char. rewrite H. reflexivity. Qed.
Lemma name_chars n : is_name n -> Forall (fun c => name_char c = true) n.
Proof. destruct n as [|c n]; [intros []|]. intros [H F]. constructor; [apply start_char; exact H|exact F]. Qed.

Lemma key_value m n v : key m n = Ok v -> exists k, In (k, v) m /\ k = n.
Proof.
  unfold key. destruct (find _ m) as [[k w]|] eqn:E; [|discriminate]. intros [= <-].
  apply find_some in E as [I E]. apply teqb_eq in E. eauto.
Qed.

Definition known (m : list (text * text)) (n : text) : Prop := exists v, key m n = Ok v.
Definition value_in (m : list (text * text)) (n : text) : text := match key m n with Ok v => v | Raise _ => [] end.

Lemma substitute_pieces m : forall ps fuel, template ps -> length (render ps) <= fuel -> Forall (known m) (names_of ps) ->
  substitute_from fuel m (render ps) = Ok (filled (value_in m) ps).
Proof.
  induction ps as [|p ps IH]; intros fuel G L K.
  - destruct fuel; reflexivity.
  - destruct fuel as [|fuel].
    { exfalso. destruct p as [c| |n|n]; cbn in L; lia. }
    destruct p as [c| |n|n]; cbn [template] in G.
    + destruct G as [Nc G]. cbn [render flat_map written app length] in *. cbn [substitute_from].
      destruct (ascii_dec c dollar) as [->|_]; [exfalso; apply Nc; reflexivity|].
      fold (render ps). rewrite IH by (assumption || (unfold render; lia)). reflexivity.
    + cbn [render flat_map written app length T list_ascii_of_string] in *. cbn [substitute_from].
      destruct (ascii_dec "$" dollar) as [_|N]; [|exfalso; apply N; reflexivity].
      fold (render ps). rewrite IH by (assumption || (unfold render; lia)). reflexivity.
    + destruct G as (Hn & He & G). cbn [names_of flat_map app] in K. inversion K as [|? ? [v Kn] K' E]; subst. 
      destruct n as [|d n]; [destruct Hn|]. pose proof (name_chars _ Hn) as Fn. destruct Hn as [Hd _].
      cbn [render flat_map written app length T list_ascii_of_string] in *. fold (render ps) in *. cbn [substitute_from].
      destruct (ascii_dec "$" dollar) as [_|N]; [|exfalso; apply N; reflexivity].
      destruct (ascii_dec d dollar) as [->|_]; [exfalso; discriminate Hd|]. rewrite Hd.
      change (d :: n ++ render ps) with ((d :: n) ++ render ps). rewrite span_app by (assumption || exact He).
      unfold filled; cbn [flat_map]; fold (filled (value_in m) ps). unfold value_in at 1. rewrite Kn. cbn [bind].
      rewrite IH; [reflexivity|exact G| |exact K']. rewrite app_length in L. lia.
    + destruct G as (Hn & G). cbn [names_of flat_map app] in K. inversion K as [|? ? [v Kn] K' E]; subst. 
      destruct n as [|d n]; [destruct Hn|]. pose proof (name_chars _ Hn) as Fn. destruct Hn as [Hd _].
      cbn [render flat_map written app length T list_ascii_of_string] in *. fold (render ps) in *. cbn [substitute_from].
      destruct (ascii_dec "$" dollar) as [_|N]; [|exfalso; apply N; reflexivity].
      destruct (ascii_dec "{" dollar) as [N|_]; [discriminate N|]. change (name_start "{") with false. cbv iota.
      destruct (ascii_dec "{" "{") as [_|N]; [|congruence].
      change (d :: (n ++ ["}"%char]) ++ render ps) with (((d :: n) ++ ["}"%char]) ++ render ps).
      rewrite <- app_assoc, span_app by (assumption || reflexivity). cbn [app]. rewrite Hd.
      destruct (ascii_dec "}" "}") as [_|N]; [|congruence]. cbn [andb].
      unfold filled; cbn [flat_map]; fold (filled (value_in m) ps). unfold value_in at 1. rewrite Kn. cbn [bind].
      rewrite IH; [reflexivity|exact G| |exact K']. rewrite !app_length in L. cbn in L. lia.
Qed.

(** A template whose names are all given is filled: every name by its value, as it is,
    doubled dollars by one, and everything else unchanged. *)
Theorem C249_filled : forall m ps, template ps -> Forall (known m) (names_of ps) ->
  substitute m (render ps) = Ok (filled (value_in m) ps).
Proof. intros m ps G K. apply substitute_pieces; [exact G|apply le_n|exact K]. Qed.

Lemma substitute_inv m : forall fuel s t, length s <= fuel -> substitute_from fuel m s = Ok t ->
  exists ps, template ps /\ render ps = s /\ Forall (known m) (names_of ps) /\ filled (value_in m) ps = t.
Proof.
  induction fuel as [|fuel IH]; intros s t L E.
  - destruct s; [|cbn in L; lia]. injection E as <-. exists []. repeat split; constructor.
  - destruct s as [|c r]; [injection E as <-; exists []; repeat split; constructor|]. cbn [substitute_from] in E. cbn [length] in L.
    destruct (ascii_dec c dollar) as [->|Nc].
    + destruct r as [|d r]; [discriminate|]. cbn [length] in L. destruct (ascii_dec d dollar) as [->|Nd].
      * destruct (substitute_from fuel m r) as [t'|] eqn:Er; [|discriminate]. injection E as <-.
        destruct (IH r t' ltac:(lia) Er) as (ps & G & R & K & F). exists (PDollar :: ps). subst. repeat split; assumption.
      * destruct (name_start d) eqn:Ed.
        -- destruct (span name_char (d :: r)) as [n rest] eqn:Es. destruct (span_inv _ _ _ _ Es) as (Esr & Fn & He).
           destruct (key m n) as [v|] eqn:Ek; [|discriminate]. cbn [bind] in E.
           destruct (substitute_from fuel m rest) as [t'|] eqn:Er; [|discriminate]. injection E as <-.
           assert (Hn : is_name n).
           { destruct n as [|a n]; [|inversion Fn; subst; cbn [app] in Esr; injection Esr as <- Esr; split; assumption].
             cbn [app] in Esr. subst rest. apply start_char in Ed. congruence. }
           assert (length rest <= fuel).
           { apply (f_equal (@length _)) in Esr. rewrite app_length in Esr. cbn [length] in Esr. destruct n; [destruct Hn|]. cbn [length] in Esr. lia. }
           destruct (IH rest t' H Er) as (ps & G & R & K & F). exists (PName n :: ps). subst.
           split; [cbn [template]; auto|]. split; [cbn [render flat_map written app T list_ascii_of_string]; rewrite Esr; reflexivity|].
           split; [cbn [names_of flat_map app]; constructor; [exists v; exact Ek|exact K]|].
           unfold filled; cbn [flat_map]. unfold value_in at 1. rewrite Ek. reflexivity.
        -- destruct (ascii_dec d "{") as [->|]; [|discriminate].
           destruct (span name_char r) as [n rest] eqn:Es. destruct (span_inv _ _ _ _ Es) as (Esr & Fn & He).
           destruct n as [|a n]; [discriminate|]. destruct rest as [|e rest]; [discriminate|].
           destruct (name_start a) eqn:Ea; [|discriminate]. destruct (ascii_dec e "}") as [->|]; [|discriminate]. cbn [andb] in E.
           destruct (key m (a :: n)) as [v|] eqn:Ek; [|discriminate]. cbn [bind] in E.
           destruct (substitute_from fuel m rest) as [t'|] eqn:Er; [|discriminate]. injection E as <-.
           assert (length rest <= fuel) by (apply (f_equal (@length _)) in Esr; rewrite app_length in Esr; cbn [length] in Esr; lia).
           destruct (IH rest t' H Er) as (ps & G & R & K & F). exists (PBraced (a :: n) :: ps). subst r t' rest.
           inversion Fn; subst.
           split; [cbn [template is_name]; auto|]. split.
           { unfold render; cbn [flat_map written app T list_ascii_of_string]. fold (render ps). rewrite <- app_assoc. reflexivity. }
           split; [cbn [names_of flat_map app]; constructor; [exists v; exact Ek|exact K]|].
           unfold filled; cbn [flat_map]. unfold value_in at 1. rewrite Ek. reflexivity.
    + destruct (substitute_from fuel m r) as [t'|] eqn:Er; [|discriminate]. injection E as <-.
      destruct (IH r t' ltac:(lia) Er) as (ps & G & R & K & F). exists (PChar c :: ps). subst. repeat split; assumption.
Qed.

(** Nothing else is accepted: a text that is filled is a template whose names are all given. *)
Theorem C249_only_templates : forall m s t, substitute m s = Ok t <->
  exists ps, template ps /\ render ps = s /\ Forall (known m) (names_of ps) /\ filled (value_in m) ps = t.
Proof.
  intros m s t. split; [apply substitute_inv, le_n|]. intros (ps & G & <- & K & <-). apply C249_filled; assumption.
Qed.

(** Text with its dollars doubled comes out as it was. *)
Theorem C249_doubled_dollars : forall m s, substitute m (replace1 dollar (T "$$") s) = Ok s.
Proof.
  intros m s.
  set (ps := map (fun c => if ascii_dec c dollar then PDollar else PChar c) s).
  assert (R : render ps = replace1 dollar (T "$$") s).
  { unfold ps, render, replace1. clear. induction s as [|c s IH]; [reflexivity|]. cbn [map flat_map]. rewrite IH.
    destruct (ascii_dec c dollar); [reflexivity|reflexivity]. }
  assert (F : filled (value_in m) ps = s).
  { unfold ps, filled. clear. induction s as [|c s IH]; [reflexivity|]. cbn [map flat_map]. rewrite IH.
    destruct (ascii_dec c dollar) as [->|]; reflexivity. }
  assert (G : template ps /\ names_of ps = []).
  { unfold ps. clear. induction s as [|c s [I1 I2]]; [split; [exact I|reflexivity]|]. cbn [map].
    destruct (ascii_dec c dollar) as [->|N]; cbn [template names_of flat_map app]; split; auto. }
  rewrite <- R. rewrite C249_filled; [f_equal; exact F|apply G|]. rewrite (proj2 G). constructor.
Qed.

Example C249_case :
  let m := [(T "bound", T "Bohning"); (T "n", T "$5")] in
  substitute m (T "the $bound bound, $$x, ${n}s; $n.") = Ok (T "the Bohning bound, $x, $5s; $5.") /\
  substitute m (T "$ns") = Raise KeyError /\ substitute m (T "$ x") = Raise ValueError /\ substitute m (T "$bound$") = Raise ValueError.
Proof. cbn zeta. repeat split; vm_compute; reflexivity. Qed.

(** ** C250: reports *)
Lemma content_write p c d q : content (write p c d) q = if teqb p q then Some c else content d q.
Proof. unfold content, write. cbn [find]. destruct (teqb p q); reflexivity. Qed.
Lemma teqb_refl a : teqb a a = true.
Proof. apply teqb_eq. reflexivity. Qed.
Lemma teqb_sym a b : teqb a b = teqb b a.
Proof. unfold teqb. destruct (list_eq_dec ascii_dec a b), (list_eq_dec ascii_dec b a); congruence. Qed.

Definition plain_name (s : text) : Prop := ~ In "/"%char s.
Lemma last_part a x b y : plain_name x -> plain_name y -> a ++ slash ++ x = b ++ slash ++ y -> a = b /\ x = y.
Proof.
  intros Hx Hy. revert b. induction a as [|c a IH]; intros [|d b] E; cbn [app slash T list_ascii_of_string] in E.
  - injection E as ->. auto.
  - injection E as <- E. exfalso. apply Hx. rewrite E. apply in_or_app. right. left. reflexivity.
  - injection E as -> E. exfalso. apply Hy. rewrite <- E. apply in_or_app. right. left. reflexivity.
  - injection E as -> E. destruct (IH b E) as [-> ->]. auto.
Qed.
Lemma str_plain n : plain_name (str n).
Proof. intros I. pose proof (str_digits n) as D. unfold digits in D. rewrite Forall_forall in D. apply D in I. discriminate. Qed.

Definition report_of (c : config) : text := fst (fst c).
Definition pattern_of (c : config) : list item := snd (fst c).
Definition bound_of (c : config) : text := snd c.
Definition found (cs : list config) (q : text) : option config := find (fun c => teqb (report_of c) q) cs.

(** The loop, if every report can be made: all that changes are the reports of
    configurations with outputs. *)
Lemma generate_all_ok file outdir names tdir dataset k tpl (made : config -> text) :
  forall cs results d,
  content d (tdir ++ slash ++ template_name k dataset) = Some tpl ->
  (forall c, In c cs -> report_of c <> tdir ++ slash ++ template_name k dataset) ->
  (forall c, In c cs -> exists impl, impl_name k (bound_of c) = Ok impl /\
     substitute (settings file outdir k (bound_of c) impl (filter (re_match (pattern_of c)) names)) tpl = Ok (made c)) ->
  (forall c c', In c cs -> In c' cs -> report_of c = report_of c' -> c = c') ->
  exists d' results', generate_all file outdir names tdir dataset k cs results d = (d', Ok results') /\
  forall q,
    folds_of results' q = match found cs q with Some c => Some (length (filter (re_match (pattern_of c)) names)) | None => folds_of results q end /\
    content d' q = match found cs q with
                   | Some c => match filter (re_match (pattern_of c)) names with [] => content d q | _ => Some (made c) end
                   | None => content d q end.
Proof.
  induction cs as [|c cs IH]; intros results d Ht Hr Hm Hc.
  - exists d, results. split; [reflexivity|]. intros q. split; reflexivity.
  - destruct (Hm c (or_introl eq_refl)) as (impl & Hi & Hs).
    set (d1 := match filter (re_match (pattern_of c)) names with [] => d | _ => write (report_of c) (made c) d end).
    assert (S1 : generate_report file outdir names tdir dataset k (pattern_of c) (report_of c) (bound_of c) d
                 = (d1, Ok (length (filter (re_match (pattern_of c)) names)))).
    { unfold generate_report, d1. destruct (filter (re_match (pattern_of c)) names) as [|f fs] eqn:Ef; [reflexivity|].
      cbn [length]. rewrite Ht, Hi, Hs. reflexivity. }
    assert (C1 : forall q, content d1 q = if teqb (report_of c) q then match filter (re_match (pattern_of c)) names with [] => content d q | _ => Some (made c) end else content d q).
    { intros q. unfold d1. destruct (filter (re_match (pattern_of c)) names); [destruct (teqb _ _); reflexivity|apply content_write]. }
    destruct (IH ((report_of c, length (filter (re_match (pattern_of c)) names)) :: results) d1) as (d' & results' & E & H).
    + rewrite C1. assert (teqb (report_of c) (tdir ++ slash ++ template_name k dataset) = false) as ->; [|exact Ht].
      destruct (teqb _ _) eqn:X; [|reflexivity]. apply teqb_eq in X. exfalso. exact (Hr c (or_introl eq_refl) X).
    + intros x Hx. apply Hr. right. exact Hx.
    + intros x Hx. apply Hm. right. exact Hx.
    + intros x y Hx Hy. apply Hc; right; assumption.
    + exists d', results'. split.
      { cbn [generate_all]. destruct c as [[rp pt] bd]. unfold report_of, pattern_of, bound_of in S1. cbn [fst snd] in S1. rewrite S1. exact E. }
      intros q. destruct (H q) as [H1 H2]. rewrite H1, H2. cbn [found find]. fold (found cs q).
      destruct (teqb (report_of c) q) eqn:Eq.
      * destruct (found cs q) as [c'|] eqn:Ec.
        -- apply find_some in Ec as [I Ec]. apply teqb_eq in Ec, Eq. assert (c' = c) as -> by (apply Hc; [right; exact I|left; reflexivity|congruence]).
           rewrite C1. assert (teqb (report_of c) q = true) as -> by (apply teqb_eq; exact Eq).
           split; [reflexivity|]. destruct (filter _ names); reflexivity.
        -- rewrite C1, Eq. split; [|reflexivity]. unfold folds_of. cbn [find]. rewrite Eq. reflexivity.
      * assert (F : folds_of ((report_of c, length (filter (re_match (pattern_of c)) names)) :: results) q = folds_of results q)
          by (unfold folds_of; cbn [find]; rewrite Eq; reflexivity).
        rewrite F, C1, Eq. split; reflexivity.
Qed.

(** Saved outputs of side-topic models: what makes the name. *)
Record output := mkOut { o_bound : bool; o_topics : nat; o_latent : nat; o_fold : nat; o_stamp : text }.
Definition output_name (o : output) : text := saved_name (stm_name (o_bound o)) (o_topics o) (Some (o_latent o)) (o_fold o) (o_stamp o).
Definition belongs (b : bool) (k p : nat) (o : output) : bool := Bool.eqb (o_bound o) b && (o_topics o =? k) && (o_latent o =? p).
Definition report_path (rdir : text) (b : bool) (k p : nat) : text :=
  rdir ++ T "/stm_yv_" ++ bound_name b ++ T "_k_" ++ str k ++ T "_p_" ++ str p ++ T ".ipynb".
(** What the names in a template stand for. *)
Definition shown (code outdir : text) (b : bool) (files : list text) (n : text) : text :=
  if teqb n (T "bound") then (if b then T "Bohning" else T "Bouchard")
  else if teqb n (T "codePath") then T "'" ++ code ++ T "'"
  else if teqb n (T "outFilesPrefix") then T "'" ++ outdir ++ T "/'"
  else if teqb n (T "outputFiles") then join (T ", ") (map (fun f => T "outputPathPrefix + '" ++ f ++ T "'") files)
  else (if b then T "stm_yv_bohning" else T "stm_yv").
Definition five_names : list text := map T ["bound"; "codePath"; "outFilesPrefix"; "outputFiles"; "implName"]%string.
Definition conversion_files (rdir tdir : text) (d : disk) : Prop :=
  forall f, f = T "article_nocode.tplx" \/ f = T "convert-to-pdf.sh" ->
    content d (rdir ++ T "/" ++ f) <> None \/ content d (tdir ++ T "/" ++ f) <> None.

Lemma settings_values file outdir b files impl : impl_name StmReport (bound_name b) = Ok impl ->
  Forall (known (settings file outdir StmReport (bound_name b) impl files)) five_names /\
  forall n, In n five_names -> value_in (settings file outdir StmReport (bound_name b) impl files) n = shown (code_dir file) outdir b files n.
Proof.
  intros E. split.
  - repeat constructor; eexists; unfold key; cbn; reflexivity.
  - intros n I. assert (Ei : impl = if b then T "stm_yv_bohning" else T "stm_yv") by (destruct b; cbn in E; injection E as <-; reflexivity).
    cbn [five_names map In] in I. destruct I as [<-|[<-|[<-|[<-|[<-|[]]]]]].
    + destruct b; reflexivity.
    + reflexivity.
    + unfold value_in, key, settings, shown. cbn -[app]. unfold quoted, slash. rewrite <- app_assoc. reflexivity.
    + reflexivity.
    + rewrite Ei. reflexivity.
Qed.

Lemma filled_ext f g ps : (forall n, In n (names_of ps) -> f n = g n) -> filled f ps = filled g ps.
Proof.
  induction ps as [|p ps IH]; intros H; [reflexivity|]. unfold filled. cbn [flat_map]. fold (filled f ps) (filled g ps).
  rewrite IH by (intros n Hn; apply H; cbn [names_of flat_map]; apply in_or_app; right; exact Hn).
  destruct p; try reflexivity; f_equal; apply H; cbn [names_of flat_map app]; left; reflexivity.
Qed.

Lemma stm_report rdir b k p : report_of (stm_config rdir (bound_name b) k p) = report_path rdir b k p.
Proof. unfold stm_config, report_of, report_path. cbn [fst]. reflexivity. Qed.
Lemma stm_base_plain b k p : plain_name (T "stm_yv_" ++ bound_name b ++ T "_k_" ++ str k ++ T "_p_" ++ str p ++ T ".ipynb").
Proof.
  intros I. rewrite !in_app_iff in I.
  repeat (destruct I as [I|I]); try (eapply str_plain; eassumption); try destruct b; cbn in I; intuition discriminate.
Qed.
Lemma report_path_inj rdir b k p b' k' p' : report_path rdir b k p = report_path rdir b' k' p' -> b = b' /\ k = k' /\ p = p'.
Proof.
  unfold report_path. intros E. apply app_inv_head in E. apply app_inv_head in E.
  assert (Hb : b' = b) by (destruct b, b'; try reflexivity; discriminate E). subst b'. apply app_inv_head in E. apply app_inv_head in E.
  apply digits_split in E as [EK E]; try apply str_digits; try reflexivity.
  apply str_inj in EK. cbn [app T list_ascii_of_string] in E. injection E as E.
  apply digits_split in E as [Ep _]; try apply str_digits; try reflexivity. apply str_inj in Ep. auto.
Qed.
Lemma in_stm_configs rdir bs ks ps c : In c (stm_configs rdir (map bound_name bs) ks ps) <->
  exists b k p, In b bs /\ In k ks /\ In p ps /\ c = stm_config rdir (bound_name b) k p.
Proof.
  unfold stm_configs. rewrite in_flat_map. split.
  - intros (x & Ix & I). apply in_map_iff in Ix as (b & <- & Ib). apply in_flat_map in I as (k & Ik & I).
    apply in_map_iff in I as (p & <- & Ip). eauto 8.
  - intros (b & k & p & Ib & Ik & Ip & ->). exists (bound_name b). split; [apply in_map; exact Ib|].
    apply in_flat_map. exists k. split; [exact Ik|]. apply in_map_iff. eauto.
Qed.

Lemma outputs_of_config outs b k p : Forall (fun o => is_stamp (o_stamp o) /\ o_fold o < 10) outs ->
  filter (re_match (stm_pattern (bound_name b) k p)) (map output_name outs) = map output_name (filter (belongs b k p) outs).
Proof.
  induction 1 as [|o outs [Hs Hf] _ IH]; [reflexivity|]. cbn [map filter]. rewrite IH.
  destruct (belongs b k p o) eqn:Eb.
  - unfold belongs in Eb. apply andb_prop in Eb as [Eb E3]. apply andb_prop in Eb as [E1 E2].
    apply eqb_prop in E1. apply Nat.eqb_eq in E2, E3. subst b k p. unfold output_name at 1.
    rewrite C54_side_topic_files by assumption. assert (o_fold o <? 10 = true) as -> by (apply Nat.ltb_lt; exact Hf). reflexivity.
  - destruct (re_match _ _) eqn:Em; [|reflexivity]. exfalso. unfold output_name in Em.
    apply C54_side_topic_files_of_others in Em as (-> & -> & ->); [|exact Hs].
    unfold belongs in Eb. rewrite eqb_reflx, !Nat.eqb_refl in Eb. discriminate.
Qed.

Definition conversion_names : list text := [T "article_nocode.tplx"; T "convert-to-pdf.sh"].
(** A file of the report directory is kept, a missing one is taken from the templates. *)
Definition copied (rdir tdir : text) (d : disk) (f : text) : option text :=
  match content d (rdir ++ T "/" ++ f) with Some c => Some c | None => content d (tdir ++ T "/" ++ f) end.

Lemma copy_ok rdir tdir d : conversion_files rdir tdir d ->
  exists d', copy_conversion rdir tdir d = (d', Ok tt) /\
    (forall q, q <> rdir ++ slash ++ latex_template -> q <> rdir ++ slash ++ pdf_script -> content d' q = content d q) /\
    (forall f, In f conversion_names -> content d' (rdir ++ T "/" ++ f) = copied rdir tdir d f).
Proof.
  intros H.
  assert (S : forall f d0, content d0 (rdir ++ slash ++ f) <> None \/ content d0 (tdir ++ slash ++ f) <> None ->
    exists d1, copy_if_absent rdir tdir f d0 = (d1, Ok tt) /\ (forall q, q <> rdir ++ slash ++ f -> content d1 q = content d0 q) /\
      content d1 (rdir ++ slash ++ f) = copied rdir tdir d0 f).
  { intros f d0 Hf. unfold copy_if_absent, copied. fold slash. destruct (content d0 (rdir ++ slash ++ f)) as [c|] eqn:E1.
    - exists d0. repeat split; auto.
    - destruct (content d0 (tdir ++ slash ++ f)) as [c|] eqn:E2; [|exfalso; destruct Hf; congruence].
      exists (write (rdir ++ slash ++ f) c d0). split; [reflexivity|]. split.
      + intros q Hq. rewrite content_write. destruct (teqb _ q) eqn:X; [apply teqb_eq in X; congruence|reflexivity].
      + rewrite content_write, teqb_refl. reflexivity. }
  assert (PL : plain_name latex_template) by (intros I; cbn in I; intuition discriminate).
  assert (PP : plain_name pdf_script) by (intros I; cbn in I; intuition discriminate).
  assert (NE : forall t, t ++ slash ++ pdf_script <> rdir ++ slash ++ latex_template).
  { intros t X. apply last_part in X as [_ X]; [discriminate X|exact PP|exact PL]. }
  assert (NE2 : rdir ++ slash ++ latex_template <> rdir ++ slash ++ pdf_script) by (intros X; symmetry in X; exact (NE _ X)).
  destruct (S latex_template d (H _ (or_introl eq_refl))) as (d1 & E1 & K1 & C1).
  destruct (S pdf_script d1) as (d2 & E2 & K2 & C2).
  { rewrite !K1 by apply NE. exact (H pdf_script (or_intror eq_refl)). }
  exists d2. unfold copy_conversion. rewrite E1, E2. split; [reflexivity|]. split.
  - intros q Q1 Q2. rewrite K2, K1 by assumption. reflexivity.
  - intros f [<-|[<-|[]]].
    + change (T "article_nocode.tplx") with latex_template. change (T "/") with slash. rewrite K2 by exact NE2. exact C1.
    + change (T "convert-to-pdf.sh") with pdf_script. change (T "/") with slash. rewrite C2. unfold copied. fold slash. rewrite !K1 by apply NE. reflexivity.
Qed.

(** Given the template of the dataset and the files for conversion, there is a result for each configuration
    asked for: the number of its outputs; its report exists if there are any, and is the
    template filled with the names of these outputs.  The files for conversion are put beside the reports unless they
    are there.  No other file changes. *)
Theorem C250_side_topic_reports : forall file outdir rdir tdir dataset outs bounds ks ps d pieces,
  Forall (fun o => is_stamp (o_stamp o) /\ o_fold o < 10) outs ->
  content d (tdir ++ (if teqb dataset (T "tweets") then T "/StmResultsSheet-Template.ipynb" else T "/StmResultsSheet-Nips-Template.ipynb")) = Some (render pieces) ->
  template pieces -> (forall n, In n (names_of pieces) -> In n five_names) ->
  conversion_files rdir tdir d ->
  exists d' results,
    generate_reports file outdir (map output_name outs) rdir (Some tdir) dataset StmReport (stm_configs rdir (map bound_name bounds) ks ps) d = (d', Ok results) /\
    (forall b k p, In b bounds -> In k ks -> In p ps ->
       let mine := filter (belongs b k p) outs in
       folds_of results (report_path rdir b k p) = Some (length mine) /\
       (mine = [] -> content d' (report_path rdir b k p) = content d (report_path rdir b k p)) /\
       (mine <> [] -> content d' (report_path rdir b k p) = Some (filled (shown (code_dir file) outdir b (map output_name mine)) pieces))) /\
    (forall q, (forall b k p, In b bounds -> In k ks -> In p ps -> q <> report_path rdir b k p) ->
       q <> rdir ++ T "/article_nocode.tplx" -> q <> rdir ++ T "/convert-to-pdf.sh" -> content d' q = content d q) /\
    (forall f, In f conversion_names -> content d' (rdir ++ T "/" ++ f) = copied rdir tdir d f).
Proof.
  intros file outdir rdir tdir dataset outs bounds ks ps d pieces Ho Ht0 Hp Hn Hc.
  assert (Ht : content d (tdir ++ slash ++ template_name StmReport dataset) = Some (render pieces)).
  { rewrite <- Ht0. unfold template_name. destruct (teqb dataset (T "tweets")); reflexivity. }
  set (cs := stm_configs rdir (map bound_name bounds) ks ps).
  set (names := map output_name outs).
  set (made := fun c : config => filled (shown (code_dir file) outdir (teqb (bound_of c) (T "bohning")) (filter (re_match (pattern_of c)) names)) pieces).
  assert (Hb : forall b, teqb (bound_name b) (T "bohning") = b) by (intros []; reflexivity).
  assert (Htn : plain_name (template_name StmReport dataset)).
  { unfold template_name. destruct (teqb dataset (T "tweets")); intros I; cbn in I; intuition discriminate. }
  destruct (generate_all_ok file outdir names tdir dataset StmReport (render pieces) made cs [] d Ht) as (d1 & results & E & H).
  - intros c Ic. apply in_stm_configs in Ic as (b & k & p & _ & _ & _ & ->). rewrite stm_report. unfold report_path. intros X.
    apply (last_part rdir (T "stm_yv_" ++ bound_name b ++ T "_k_" ++ str k ++ T "_p_" ++ str p ++ T ".ipynb")) in X as [_ X]; [|apply stm_base_plain|exact Htn].
    unfold template_name in X. destruct (teqb dataset (T "tweets")); cbn [T list_ascii_of_string app] in X; discriminate X.
  - intros c Ic. apply in_stm_configs in Ic as (b & k & p & _ & _ & _ & ->). cbn [stm_config bound_of pattern_of fst snd].
    exists (if b then T "stm_yv_bohning" else T "stm_yv"). split; [destruct b; reflexivity|].
    assert (Ei : impl_name StmReport (bound_name b) = Ok (if b then T "stm_yv_bohning" else T "stm_yv")) by (destruct b; reflexivity).
    destruct (settings_values file outdir b (filter (re_match (stm_pattern (bound_name b) k p)) names) _ Ei) as [K V].
    rewrite C249_filled; [|exact Hp|].
    + f_equal. unfold made. cbn [stm_config bound_of pattern_of fst snd]. rewrite Hb. apply filled_ext. intros n In_. apply V. apply Hn. exact In_.
    + apply Forall_forall. intros n In_. rewrite Forall_forall in K. apply K. apply Hn. exact In_.
  - intros c c' Ic Ic' X. apply in_stm_configs in Ic as (b & k & p & _ & _ & _ & ->), Ic' as (b' & k' & p' & _ & _ & _ & ->).
    rewrite !stm_report in X. apply report_path_inj in X as (-> & -> & ->). reflexivity.
  - assert (Cp : forall q, content d q <> None -> content d1 q <> None).
    { intros q Hq. rewrite (proj2 (H q)). destruct (found cs q); [destruct (filter _ names); [exact Hq|discriminate]|exact Hq]. }
    destruct (copy_ok rdir tdir d1) as (d2 & E2 & K2 & C2).
    { intros f Hf. destruct (Hc f Hf) as [X|X]; [left|right]; apply Cp; exact X. }
    assert (Fr : forall b k p, In b bounds -> In k ks -> In p ps -> found cs (report_path rdir b k p) = Some (stm_config rdir (bound_name b) k p)).
    { intros b k p Ib Ik Ip. destruct (found cs (report_path rdir b k p)) as [c|] eqn:Ec.
      - apply find_some in Ec as [Ic Ec]. apply teqb_eq in Ec. apply in_stm_configs in Ic as (b' & k' & p' & _ & _ & _ & ->).
        rewrite stm_report in Ec. apply report_path_inj in Ec as (-> & -> & ->). reflexivity.
      - exfalso. eapply find_none in Ec; [|apply in_stm_configs; exists b, k, p; eauto]. cbn beta in Ec.
        rewrite stm_report, teqb_refl in Ec. discriminate. }
    assert (Nc : forall b k p, report_path rdir b k p <> rdir ++ slash ++ latex_template /\ report_path rdir b k p <> rdir ++ slash ++ pdf_script).
    { intros b k p. unfold report_path. split; intros X; apply app_inv_head in X; unfold slash, latex_template, pdf_script in X; cbn [T list_ascii_of_string app] in X; discriminate X. }
    assert (Kf : forall t f, In f conversion_names -> content d1 (t ++ T "/" ++ f) = content d (t ++ T "/" ++ f)).
    { intros t f If. rewrite (proj2 (H _)). destruct (found cs (t ++ T "/" ++ f)) as [c|] eqn:Ec; [|reflexivity]. exfalso.
      apply find_some in Ec as [Ic Ec]. apply teqb_eq in Ec. apply in_stm_configs in Ic as (b & k & p & _ & _ & _ & ->). rewrite stm_report in Ec.
      apply (last_part rdir (T "stm_yv_" ++ bound_name b ++ T "_k_" ++ str k ++ T "_p_" ++ str p ++ T ".ipynb")) in Ec as [_ Ec]; [|apply stm_base_plain|].
      - destruct If as [<-|[<-|[]]]; cbn [T list_ascii_of_string app] in Ec; discriminate Ec.
      - destruct If as [<-|[<-|[]]]; intros I; cbn in I; intuition discriminate. }
    exists d2, results. split; [|split; [|split]].
    + unfold generate_reports. fold cs names. rewrite E, E2. reflexivity.
    + intros b k p Ib Ik Ip mine. destruct (H (report_path rdir b k p)) as [H1 H2].
      rewrite (K2 _ (proj1 (Nc b k p)) (proj2 (Nc b k p))). rewrite H1, H2, (Fr b k p Ib Ik Ip). cbn [stm_config pattern_of fst snd].
      unfold names. rewrite outputs_of_config by exact Ho. fold mine. rewrite map_length. split; [reflexivity|]. split.
      * intros ->. reflexivity.
      * intros Nm. destruct (map output_name mine) as [|x xs] eqn:Em; [destruct mine; [congruence|discriminate]|].
        f_equal. unfold made. cbn [stm_config bound_of pattern_of fst snd]. rewrite Hb. unfold names. rewrite outputs_of_config by exact Ho. fold mine. rewrite Em. reflexivity.
    + intros q Hq Q1 Q2. rewrite K2 by assumption. rewrite (proj2 (H q)).
      destruct (found cs q) as [c|] eqn:Ec; [|reflexivity]. exfalso. apply find_some in Ec as [Ic Ec]. apply teqb_eq in Ec.
      apply in_stm_configs in Ic as (b & k & p & Ib & Ik & Ip & ->). rewrite stm_report in Ec. exact (Hq b k p Ib Ik Ip (eq_sym Ec)).
    + intros f If. rewrite C2 by exact If. unfold copied. rewrite !Kf by exact If. reflexivity.
Qed.

(** No report is taken for an output, whatever the configurations. *)
Theorem C250_reports_are_not_outputs : forall b k p b' k' p',
  re_match (stm_pattern (bound_name b) k p) (T "stm_yv_" ++ bound_name b' ++ T "_k_" ++ str k' ++ T "_p_" ++ str p' ++ T ".ipynb") = false /\
  re_match (ctm_pattern (bound_name b) k) (T "ctm_" ++ bound_name b' ++ T "_k_" ++ str k' ++ T ".ipynb") = false.
Proof.
  intros b k p b' k' p'. split.
  - destruct (re_match _ _) eqn:E; [|reflexivity]. exfalso. unfold stm_pattern in E. apply match_lits_inv in E as (t & E & _).
    rewrite <- !app_assoc in E. apply app_inv_head in E.
    assert (Hb : b' = b) by (destruct b, b'; try reflexivity; discriminate E). subst b'. apply app_inv_head in E. apply app_inv_head in E.
    apply digits_split in E as [_ E]; try apply str_digits; try reflexivity.
    cbn [app T list_ascii_of_string] in E. injection E as E.
    apply digits_split in E as [_ E]; try apply str_digits; try reflexivity. discriminate.
  - destruct (re_match _ _) eqn:E; [|reflexivity]. exfalso. unfold ctm_pattern in E. apply match_lits_inv in E as (t & E & _).
    rewrite <- !app_assoc in E. apply app_inv_head in E.
    assert (Hb : b' = b) by (destruct b, b'; try reflexivity; discriminate E). subst b'. apply app_inv_head in E. apply app_inv_head in E.
    apply digits_split in E as [_ E]; try apply str_digits; try reflexivity. discriminate.
Qed.

(** Refuted: saved outputs of correlated topic models get no report; the result is zero folds. *)
Theorem C250_correlated_reports_refuted : forall file outdir rdir tdir dataset bounds ks d (saved : list (bool * nat * nat * text)),
  exists results,
    generate_all file outdir (map (fun '(b, k, f, s) => saved_name (ctm_name b) k None f s) saved) tdir dataset CtmReport (ctm_configs rdir (map bound_name bounds) ks) [] d
    = (d, Ok results) /\ Forall (fun r => snd r = 0) results.
Proof.
  intros file outdir rdir tdir dataset bounds ks d saved. set (names := map _ saved).
  assert (N : forall b k, filter (re_match (ctm_pattern (bound_name b) k)) names = []).
  { intros b k. unfold names. induction saved as [|[[[b' k'] f] s] saved IH]; [reflexivity|]. cbn [map filter].
    rewrite C54_correlated_files_never_found. exact IH. }
  assert (G : forall cs results, (forall c, In c cs -> exists b k, c = ctm_config rdir (bound_name b) k) -> Forall (fun r => snd r = 0) results ->
     exists results', generate_all file outdir names tdir dataset CtmReport cs results d = (d, Ok results') /\ Forall (fun r => snd r = 0) results').
  { induction cs as [|c cs IH]; intros results Hc Hr; [exists results; auto|].
    destruct (Hc c (or_introl eq_refl)) as (b & k & ->). cbn [generate_all ctm_config]. unfold generate_report. rewrite N. cbn [length].
    apply IH; [intros x Hx; apply Hc; right; exact Hx|constructor; [reflexivity|exact Hr]]. }
  apply G; [|constructor]. intros c Ic. unfold ctm_configs in Ic. apply in_flat_map in Ic as (x & Ix & I). apply in_map_iff in Ix as (b & <- & _).
  apply in_map_iff in I as (k & <- & _). eauto.
Qed.

(** Refuted: "folds set to zero if there was an error".  Where the template is missing, the first configuration
    that has outputs raises, and nothing is returned. *)
Theorem C250_errors_refuted : forall file outdir names tdir dataset k cs results d,
  content d (tdir ++ slash ++ template_name k dataset) = None ->
  (exists c, In c cs /\ filter (re_match (pattern_of c)) names <> []) ->
  generate_all file outdir names tdir dataset k cs results d = (d, Raise OtherError).
Proof.
  intros file outdir names tdir dataset k cs results d Hn. revert results.
  induction cs as [|c cs IH]; intros results (x & Ix & Hx); [destruct Ix|]. destruct c as [[rp pt] bd]. cbn [generate_all].
  unfold generate_report. destruct (filter (re_match pt) names) as [|f fs] eqn:Ef; cbn [length].
  - apply IH. destruct Ix as [<-|Ix]; [exfalso; apply Hx; exact Ef|]. exists x. auto.
  - rewrite Hn. reflexivity.
Qed.

(** Refuted: the built-in templates are found.  They are in the directory of notebooks beside the package; looked
    for is one within it, and then every run with outputs raises. *)
Theorem C250_builtin_templates_refuted : forall root,
  let file := root ++ T "/sidetopics/run/report_generator.py" in
  default_template_dir file = root ++ T "/sidetopics/notebooks" /\
  forall outdir names rdir dataset k cs d,
    (forall q x, content d q = Some x -> forall n, q <> root ++ T "/sidetopics/notebooks/" ++ n) ->
    (exists c, In c cs /\ filter (re_match (pattern_of c)) names <> []) ->
    generate_reports file outdir names rdir None dataset k cs d = (d, Raise OtherError).
Proof.
  intros root file.
  assert (D : forall a x, plain_name x -> dirname (a ++ T "/" ++ x) = a).
  { intros a x Hx. unfold dirname. rewrite !rev_app_distr, <- app_assoc. cbn [T list_ascii_of_string rev app].
    rewrite span_app.
    - cbn [snd]. apply rev_involutive.
    - apply Forall_forall. intros c Hc. apply in_rev in Hc. destruct (ascii_dec c "/") as [->|]; [exfalso; apply Hx; exact Hc|reflexivity].
    - reflexivity. }
  assert (E : default_template_dir file = root ++ T "/sidetopics/notebooks").
  { unfold default_template_dir, file.
    change (root ++ T "/sidetopics/run/report_generator.py") with (root ++ T "/sidetopics/run" ++ T "/" ++ T "report_generator.py").
    rewrite (app_assoc root), D by (intros I; cbn in I; intuition discriminate).
    change (root ++ T "/sidetopics/run") with (root ++ T "/sidetopics" ++ T "/" ++ T "run").
    rewrite (app_assoc root), D by (intros I; cbn in I; intuition discriminate). rewrite <- app_assoc. reflexivity. }
  split; [exact E|]. intros outdir names rdir dataset k cs d Hd Hc. unfold generate_reports. cbv zeta. rewrite E.
  rewrite C250_errors_refuted; [reflexivity| |exact Hc].
  destruct (content d _) as [x|] eqn:X; [|reflexivity]. exfalso. apply (Hd _ _ X (template_name k dataset)).
  rewrite <- app_assoc. reflexivity.
Qed.

(** Refuted: the number returned is that of folds.  Two outputs of one fold count twice, and so does a copy of an output. *)
Theorem C250_folds_refuted : exists outs b k p,
  Forall (fun o => is_stamp (o_stamp o) /\ o_fold o = 0) outs /\ length (filter (belongs b k p) outs) = 2 /\
  re_match (stm_pattern (bound_name b) k p) (output_name (hd (mkOut true 0 0 0 []) outs) ++ T ".bak") = true.
Proof.
  exists [mkOut true 5 3 0 (T "20150131_0930"); mkOut true 5 3 0 (T "20150201_0930")], true, 5, 3.
  split; [|split; [reflexivity|vm_compute; reflexivity]].
  repeat constructor; [exists (T "20150131"), (T "0930")|exists (T "20150201"), (T "0930")]; repeat split; repeat constructor.
Qed.

Definition sample_disk : disk :=
  [(T "nb/StmResultsSheet-Template.ipynb", T "The $bound bound: [ $outputFiles ]"); (T "nb/article_nocode.tplx", T "x"); (T "nb/convert-to-pdf.sh", T "y")].
Example C250_case :
  let outs := [mkOut true 5 3 0 (T "20150131_0930"); mkOut false 5 3 0 (T "20150131_0930"); mkOut true 5 3 1 (T "20150131_0931")] in
  let (d, r) := generate_reports (T "r/sidetopics/run/report_generator.py") (T "out") (map output_name outs) (T "rep") (Some (T "nb")) (T "tweets") StmReport
                  (stm_configs (T "rep") (map bound_name [true; false]) [5] [3; 4]) sample_disk in
  content d (T "rep/stm_yv_bohning_k_5_p_3.ipynb")
  = Some (T "The Bohning bound: [ outputPathPrefix + 'stm_yv_bohning_k_5_p_3_fold_0_20150131_0930.pkl', outputPathPrefix + 'stm_yv_bohning_k_5_p_3_fold_1_20150131_0931.pkl' ]") /\
  match r with Ok r => folds_of r (T "rep/stm_yv_bohning_k_5_p_3.ipynb") = Some 2 /\ folds_of r (T "rep/stm_yv_bouchard_k_5_p_4.ipynb") = Some 0 | Raise _ => False end /\
  content d (T "rep/stm_yv_bouchard_k_5_p_4.ipynb") = None /\ content d (T "rep/convert-to-pdf.sh") = Some (T "y").
Proof. vm_compute. repeat split. Qed.

(** ** C251: what the report says about its outputs *)
(** Python text in single quotes that stands for itself. *)
Definition verbatim (s : text) : Prop := ~ In "'"%char s /\ ~ In "\"%char s /\ ~ In (ascii_of_nat 10) s.
Inductive lists_files : text -> list text -> Prop :=
| LF_one v : verbatim v -> lists_files (T "outputPathPrefix + '" ++ v ++ T "'") [v]
| LF_more v s vs : verbatim v -> lists_files s vs -> lists_files (T "outputPathPrefix + '" ++ v ++ T "', " ++ s) (v :: vs).

Lemma quote_split v x w y : ~ In "'"%char v -> ~ In "'"%char w -> v ++ "'"%char :: x = w ++ "'"%char :: y -> v = w /\ x = y.
Proof.
  intros Hv. revert w. induction v as [|c v IH]; intros [|e w] Hw E; cbn [app] in E.
  - injection E as ->. auto.
  - injection E as <- _. exfalso. apply Hw. left. reflexivity.
  - injection E as -> _. exfalso. apply Hv. left. reflexivity.
  - injection E as -> E. destruct (IH (fun I => Hv (or_intror I)) w (fun I => Hw (or_intror I)) E) as [-> ->]. auto.
Qed.

Lemma lists_files_fun s vs : lists_files s vs -> forall ws, lists_files s ws -> vs = ws.
Proof.
  intros H. remember s as t eqn:Et. revert s Et.
  induction H as [v Hv|v s vs Hv Hs IH]; intros t Et ws W.
  - inversion W as [w Hw Ew|w t' ws' Hw Ht Ew]; clear W; subst.
    + f_equal. cbn [T list_ascii_of_string] in Ew. apply quote_split in Ew as [-> _]; [reflexivity|apply Hw|apply Hv].
    + exfalso. cbn [app T list_ascii_of_string] in Ew. apply quote_split in Ew as [_ Ew]; [discriminate|apply Hw|apply Hv].
  - inversion W as [w Hw Ew|w t' ws' Hw Ht Ew]; clear W; subst.
    + exfalso. cbn [app T list_ascii_of_string] in Ew. apply quote_split in Ew as [_ Ew]; [discriminate|apply Hw|apply Hv].
    + cbn [app T list_ascii_of_string] in Ew. apply quote_split in Ew as [-> Ew]; [|apply Hw|apply Hv].
      injection Ew as ->. f_equal. apply (IH _ eq_refl). exact Ht.
Qed.

(** The list in the report stands for the outputs, and for nothing else. *)
Theorem C251_outputs_listed : forall code outdir b files, files <> [] -> Forall verbatim files ->
  forall vs, lists_files (shown code outdir b files (T "outputFiles")) vs <-> vs = files.
Proof.
  intros code outdir b files Ne Hf vs.
  assert (L : lists_files (shown code outdir b files (T "outputFiles")) files).
  { change (shown code outdir b files (T "outputFiles")) with (join (T ", ") (map (fun f => T "outputPathPrefix + '" ++ f ++ T "'") files)).
    induction files as [|f files IH]; [congruence|]. inversion Hf; subst. destruct files as [|g files].
    - cbn [map join]. apply LF_one. assumption.
    - change (join (T ", ") (map (fun f0 => T "outputPathPrefix + '" ++ f0 ++ T "'") (f :: g :: files)))
        with ((T "outputPathPrefix + '" ++ f ++ T "'") ++ T ", " ++ join (T ", ") (map (fun f0 => T "outputPathPrefix + '" ++ f0 ++ T "'") (g :: files))).
      rewrite <- !app_assoc. apply (LF_more f); [assumption|]. apply IH; [discriminate|assumption]. }
  split; [|intros ->; exact L]. intros H. symmetry. eapply lists_files_fun; eassumption.
Qed.

(** Names of saved outputs are of that kind, so a report lists exactly its outputs. *)
Theorem C251_saved_outputs_listed : forall code outdir b k p outs, Forall (fun o => is_stamp (o_stamp o)) outs ->
  let mine := map output_name (filter (belongs b k p) outs) in mine <> [] ->
  forall vs, lists_files (shown code outdir b mine (T "outputFiles")) vs <-> vs = mine.
Proof.
  intros code outdir b k p outs Ho mine Ne. apply C251_outputs_listed; [exact Ne|].
  apply Forall_forall. intros n In_. apply in_map_iff in In_ as (o & <- & Io). apply filter_In in Io as [Io _].
  rewrite Forall_forall in Ho. specialize (Ho o Io). destruct Ho as (a & c & Es & Da & Dc & _).
  unfold output_name. rewrite stm_file_name, Es.
  assert (G : forall x, is_digit x = false -> ~ In x (T "stm_yv_bohningbouchard_k_p_fold_.pkl") ->
     ~ In x ((T "stm_yv_" ++ bound_name (o_bound o) ++ T "_k_" ++ str (o_topics o) ++ T "_p_" ++ str (o_latent o) ++ T "_fold_") ++ str (o_fold o) ++ T "_" ++ (a ++ T "_" ++ c) ++ T ".pkl")).
  { intros x Hd Hx I. apply Hx. rewrite !in_app_iff in I.
    assert (Dg : forall s, digits s -> In x s -> False) by (intros s Ds Is; unfold digits in Ds; rewrite Forall_forall in Ds; apply Ds in Is; congruence).
    repeat (destruct I as [I|I]); try (exfalso; eapply Dg; [|exact I]; first [apply str_digits|assumption]);
      try destruct (o_bound o); cbn in I |- *; intuition (subst; tauto). }
  repeat split; apply G; try reflexivity; vm_compute; intuition discriminate.
Qed.

(** Refuted for directories with an apostrophe: the prefix is not a Python text. *)
Theorem C251_directories_refuted : exists outdir, forall code b files,
  shown code outdir b files (T "outFilesPrefix") = T "'it's/'" /\ ~ verbatim (outdir ++ T "/").
Proof. exists (T "it's"). intros code b files. split; [reflexivity|]. intros [H _]. apply H. right. right. left. reflexivity. Qed.

(** Refuted: the side-topic models' reports can be asked for without --lat-sizes, which is not
    declared as needed. *)
Theorem C251_latent_sizes_refuted : forall to_int file names topic_counts ks outdir rdir tdir dataset d,
  mapM to_int (split_on ","%char topic_counts) = Ok ks ->
  run_reports to_int file names (T "stm_yv") topic_counts None outdir rdir tdir dataset d = (d, Raise UnboundLocalError).
Proof. intros. unfold run_reports. rewrite H. reflexivity. Qed.

(** With them, and one of the spellings of C106, the reports of all configurations are made. *)
Theorem C251_command : forall to_int file names topic_counts ks latent ps outdir rdir tdir dataset d m bounds,
  mapM to_int (split_on ","%char topic_counts) = Ok ks -> mapM to_int (split_on ","%char latent) = Ok ps ->
  choose_report m dataset = Ok (StmReport, bounds) ->
  fst (run_reports to_int file names m topic_counts (Some latent) outdir rdir tdir dataset d)
  = fst (generate_reports file outdir names rdir tdir dataset StmReport (stm_configs rdir bounds ks ps) d).
Proof.
  intros to_int file names topic_counts ks latent ps outdir rdir tdir dataset d m bounds Hk Hp Hc. unfold run_reports. rewrite Hk, Hp. cbn [bind]. rewrite Hc.
  destruct (generate_reports _ _ _ _ _ _ _ _ _) as [d' r]. reflexivity.
Qed.

Example C251_case : exists vs, lists_files (shown (T "c") (T "o") true [T "a.pkl"; T "b.pkl"] (T "outputFiles")) vs /\ vs = [T "a.pkl"; T "b.pkl"] /\
  shown (T "c") (T "o") true [T "a.pkl"; T "b.pkl"] (T "outputFiles") = T "outputPathPrefix + 'a.pkl', outputPathPrefix + 'b.pkl'".
Proof.
  exists [T "a.pkl"; T "b.pkl"]. split; [|split; reflexivity]. apply C251_outputs_listed; [discriminate| |reflexivity].
  repeat constructor; vm_compute; intuition discriminate.
Qed.

Print Assumptions C249_filled.
Print Assumptions C249_only_templates.
Print Assumptions C249_doubled_dollars.
Print Assumptions C250_side_topic_reports.
Print Assumptions C250_reports_are_not_outputs.
Print Assumptions C250_correlated_reports_refuted.
Print Assumptions C250_errors_refuted.
Print Assumptions C250_builtin_templates_refuted.
Print Assumptions C250_folds_refuted.
Print Assumptions C251_outputs_listed.
Print Assumptions C251_saved_outputs_listed.
Print Assumptions C251_directories_refuted.
Print Assumptions C251_latent_sizes_refuted.
Print Assumptions C251_command.
