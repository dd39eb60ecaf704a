(** * The side topic model of old/sidetopic_uyv.py: C271-C277. *)
From Coq Require Import List Reals ZArith Arith Bool Lra Lia FunctionalExtensionality.
From Verif Require Import Base RealModel RealProofs VbModel VbProofs LinkModel LinkProps CtmModel CtmProofs CtmProps StmProofs StmProps BouchModel BouchProofs
  BouchProps VecyProofs UyvModel UyvProofs.
Import ListNotations.
Open Scope nat_scope.

(** ** Facts about iterations and loops *)
Section runs.
  Variables K Q F P T D : nat.
  Variables sigmaSq alphaSq kappaSq tauSq : R.
  Variable inv : nat -> mat -> option mat.
  Variable pinv : mat -> mat.
  Variable sylvester : mat -> mat -> mat -> mat.
  Variable solve : mat -> vec -> vec.
  Notation iter := (uyv_iter K Q F P T D sigmaSq alphaSq kappaSq tauSq inv pinv sylvester solve).
  Notation loop := (uyv_loop K Q F P T D sigmaSq alphaSq kappaSq tauSq inv pinv sylvester solve).
  Notation train := (uyv_train K Q F P T D sigmaSq alphaSq kappaSq tauSq inv pinv sylvester solve).

  Lemma la_inv_cases m M : (exists N, la_inv inv m M = Ok N /\ inv m M = Some N) \/ (la_inv inv m M = Raise LinAlgError /\ inv m M = None).
  Proof. unfold la_inv. destruct (inv m M) as [N|]; [left; exists N; split; reflexivity|right; split; reflexivity]. Qed.
  Lemma iter_cases fast W X s e : (exists r, iter fast W X s e = Ok r) \/ iter fast W X s e = Raise LinAlgError.
  Proof.
    unfold uyv_iter. cbv zeta.
    match goal with |- context [la_inv inv Q ?M] => destruct (la_inv_cases Q M) as [[N1 [-> _]]|[-> _]] end; cbn [bind]; [|right; reflexivity].
    match goal with |- context [la_inv inv P ?M] => destruct (la_inv_cases P M) as [[N2 [-> _]]|[-> _]] end; cbn [bind]; [|right; reflexivity].
    unfold new_U. match goal with |- context [la_inv inv Q ?M] => destruct (la_inv_cases Q M) as [[N3 [-> _]]|[-> _]] end; cbn [bind]; [|right; reflexivity].
    unfold new_V. match goal with |- context [la_inv inv P ?M] => destruct (la_inv_cases P M) as [[N4 [-> _]]|[-> _]] end; cbn [bind]; [|right; reflexivity].
    left. eexists. reflexivity.
  Qed.
  Lemma loop_cases plan elbo W X step : (forall i s, exists b, elbo i s = Ok b) -> forall todo iteration logIter last seen s e,
    (exists r, loop plan step elbo W X iteration todo logIter last seen s e = Ok r) \/ loop plan step elbo W X iteration todo logIter last seen s e = Raise LinAlgError.
  Proof.
    intros HE. induction todo as [|todo IH]; intros iteration logIter last seen s e; cbn [uyv_loop]; [left; eexists; reflexivity|].
    destruct (iter_cases (p_fast plan) W X s e) as [[[s1 e1] E1]|E1]; rewrite E1; cbn [bind]; [|right; reflexivity].
    destruct (Z.of_nat iteration =? logIter)%Z; [|apply IH]. destruct (HE iteration s1) as [b Eb]. rewrite Eb. cbn [bind]. cbv zeta.
    destruct (_ && _); [left; eexists; reflexivity|apply IH].
  Qed.
  (** What an iteration makes. *)
  Lemma iter_shape fast W X s e s' e' : iter fast W X s e = Ok (s', e') ->
    u_omA s' = u_omA s /\ e' = (fun d k => exp (ln (e d k))) /\ u_vocab s' = new_vocab K T D W e' (u_vocab s) /\
    inv Q (fun i j => scalar (1 / tauSq * (1 / kappaSq)) i j + 1 / alphaSq * (1 / sigmaSq) * gram K (u_U s) i j)%R = Some (u_sigY s') /\
    inv P (fun i j => scalar (1 / tauSq * (1 / kappaSq)) i j + 1 / alphaSq * (1 / sigmaSq) * gram F (u_V s) i j)%R = Some (u_omY s') /\
    u_Y s' = new_Y K Q F sigmaSq alphaSq kappaSq tauSq inv pinv sylvester solve fast (u_U s) (u_V s) (u_A s) /\
    u_A s' = new_A Q F P D alphaSq (u_omA s) X (fun d k => ln (e d k)) (u_U s) (u_Y s') (u_V s) /\
    new_U Q F P inv (u_A s') (u_V s) (u_Y s') (u_omY s') (u_sigY s') = Ok (u_U s') /\
    new_V K Q P inv (u_A s') (u_U s') (u_Y s') (u_omY s') (u_sigY s') = Ok (u_V s').
  Proof.
    unfold uyv_iter. cbv zeta. intros E.
    match type of E with context [la_inv inv Q ?M] => destruct (la_inv_cases Q M) as [[N1 [E1 I1]]|[E1 _]]; rewrite E1 in E end; cbn [bind] in E; [|discriminate].
    match type of E with context [la_inv inv P ?M] => destruct (la_inv_cases P M) as [[N2 [E2 I2]]|[E2 _]]; rewrite E2 in E end; cbn [bind] in E; [|discriminate].
    match type of E with bind ?m _ = _ => destruct m as [U'|x] eqn:EU end; cbn [bind] in E; [|discriminate].
    match type of E with bind ?m _ = _ => destruct m as [V'|x] eqn:EV end; cbn [bind] in E; [|discriminate].
    injection E as <- <-. cbn [u_omA u_vocab u_sigY u_omY u_Y u_A u_U u_V]. repeat (split; [reflexivity || assumption|]). assumption.
  Qed.
  Lemma loop_end plan elbo W X step (I J : uyv -> mat -> Prop) : (forall s e s' e', I s e -> iter (p_fast plan) W X s e = Ok (s', e') -> J s' e') ->
    (forall s e, J s e -> I s e) -> forall todo iteration logIter last seen s e s' e' seen', I s e ->
    loop plan step elbo W X iteration (S todo) logIter last seen s e = Ok (s', e', seen') -> J s' e'.
  Proof.
    intros HI HJ todo iteration logIter last seen s e s' e' seen' H E. cbn [uyv_loop] in E.
    destruct (iter (p_fast plan) W X s e) as [[s1 e1]|x] eqn:E1; cbn [bind] in E; [|discriminate]. pose proof (HI _ _ _ _ H E1) as H1.
    assert (HK : forall s e s' e', J s e -> iter (p_fast plan) W X s e = Ok (s', e') -> J s' e') by (intros; eapply HI; [apply HJ; eassumption|eassumption]).
    destruct (Z.of_nat iteration =? logIter)%Z.
    - destruct (elbo iteration s1) as [b|x]; cbn [bind] in E; [|discriminate]. cbv zeta in E.
      destruct (_ && _); [injection E as <- <- <-; exact H1|].
      exact (loop_keeps _ _ _ _ _ _ _ _ _ _ _ _ _ _ plan elbo W X J step HK _ _ _ _ _ _ _ _ _ _ H1 E).
    - exact (loop_keeps _ _ _ _ _ _ _ _ _ _ _ _ _ _ plan elbo W X J step HK _ _ _ _ _ _ _ _ _ _ H1 E).
  Qed.
  Lemma exp_ln_exp (x : mat) : (fun d k => exp (ln (exp (x d k)))) = (fun d k => exp (x d k)).
  Proof. extensionality d. extensionality k. rewrite ln_exp. reflexivity. Qed.
  (** What training makes of its loop. *)
  Lemma train_shape plan sparse elbo lowest draws W X s s' q' seen : train plan sparse elbo lowest draws W X s = Ok (s', q', seen) ->
    D <> 1 /\ sparse = true /\ p_plot plan = false /\ exists omA e' back, inv F (fun f g => scalar (1 / alphaSq) f g + gram D X f g)%R = Some omA /\
    loop plan (Rpower (INR (p_iterations plan)) (1 / INR (p_logs plan))) elbo W X 0 (p_iterations plan)
      (if 0 <? p_logs plan then 1%Z else (Z.of_nat (p_iterations plan) + 1)%Z) lowest []
      {| u_A := u_A s; u_omA := omA; u_Y := u_Y s; u_omY := u_omY s; u_sigY := u_sigY s; u_U := u_U s; u_V := u_V s; u_vocab := u_vocab s |}
      (fun d k => exp (draws d k)) = Ok (s', e', back) /\
    seen = rev back /\ q' = {| u_exp := e'; u_nu := fun _ _ => 1%R; u_lxi := fun _ _ => neg_jakkola 1; u_s := fun _ => 0%R |}.
  Proof.
    unfold uyv_train. intros E. destruct (Nat.eqb_spec D 1) as [|HD]; [discriminate|]. destruct sparse; cbn [negb] in E; [|discriminate].
    unfold gram_inverse in E. match type of E with context [la_inv inv F ?M] => destruct (la_inv_cases F M) as [[omA [E1 I1]]|[E1 _]]; rewrite E1 in E end; cbn [bind] in E; [|discriminate].
    cbv zeta in E. cbn [new_query u_exp u_nu u_lxi u_s] in E.
    match type of E with bind ?m _ = _ => destruct m as [[[s1 e1] back]|x] eqn:EL end; cbn [bind] in E; [|discriminate].
    destruct (p_plot plan); [destruct (0 <? p_logs plan); discriminate|]. injection E as <- <- <-.
    split; [exact HD|]. split; [reflexivity|]. split; [reflexivity|]. exists omA, e1, back. repeat split; assumption.
  Qed.

  (** ** C271: the topics of the documents *)
  Theorem C271_topics_kept plan sparse elbo lowest draws W X s s' q' seen : train plan sparse elbo lowest draws W X s = Ok (s', q', seen) ->
    forall d k, u_exp q' d k = exp (draws d k) /\ u_nu q' d k = 1%R /\ u_lxi q' d k = neg_jakkola 1 /\ u_s q' d = 0%R.
  Proof.
    intros E. destruct (train_shape _ _ _ _ _ _ _ _ _ _ _ E) as (_ & _ & _ & omA & e' & back & _ & EL & _ & ->). intros d k. cbn [u_exp u_nu u_lxi u_s].
    split; [|repeat split; reflexivity].
    assert (H : e' = fun d k => exp (draws d k)).
    { refine (loop_keeps _ _ _ _ _ _ _ _ _ _ _ _ _ _ plan elbo W X (fun _ e => e = fun d k => exp (draws d k)) _ _ _ _ _ _ _ _ _ _ _ _ eq_refl EL).
      intros s0 e0 s1 e1 He E1. destruct (iter_shape _ _ _ _ _ _ _ E1) as (_ & -> & _). rewrite He. apply exp_ln_exp. }
    rewrite H. reflexivity.
  Qed.

  (** ** C273: the words of the topics *)
  Theorem C273_distributions plan sparse elbo lowest draws W X s s' q' seen : 0 < K -> (forall d t, d < D -> t < T -> (0 <= W d t)%R) -> (exists t, occurs T D W t) ->
    weights K T D W (u_vocab s) -> 0 < p_iterations plan -> train plan sparse elbo lowest draws W X s = Ok (s', q', seen) ->
    distributions K T (u_vocab s') /\ forall k t, k < K -> occurs T D W t -> (0 < u_vocab s' k t)%R.
  Proof.
    intros HK HW HO Hv Hi E. destruct (train_shape _ _ _ _ _ _ _ _ _ _ _ E) as (_ & _ & _ & omA & e' & back & _ & EL & _ & _).
    destruct (p_iterations plan) as [|todo] eqn:Et; [lia|].
    match type of EL with context [Build_uyv ?a ?o ?y ?oy ?sy ?u ?v ?c] => set (s0 := Build_uyv a o y oy sy u v c) in EL end.
    change (weights K T D W (u_vocab s0)) in Hv.
    refine (proj2 (loop_end plan elbo W X _ (fun s e => weights K T D W (u_vocab s) /\ e = fun d k => exp (draws d k))
      (fun s e => (weights K T D W (u_vocab s) /\ e = fun d k => exp (draws d k)) /\ distributions K T (u_vocab s) /\ forall k t, k < K -> occurs T D W t -> (0 < u_vocab s k t)%R)
      _ _ todo 0 _ _ _ _ _ _ _ _ (conj Hv eq_refl) EL)).
    - intros s2 e0 s1 e1 [H0 He] E1. destruct (iter_shape _ _ _ _ _ _ _ E1) as (_ & -> & Ev & _). rewrite He, exp_ln_exp in *.
      pose proof (vocab_weights K T D W draws HK HW HO (u_vocab s2) H0) as Hw. pose proof (vocab_distributions K T D W draws HK HW HO (u_vocab s2) H0) as Hd.
      rewrite <- Ev in Hw, Hd. split; [split; [exact Hw|reflexivity]|]. split; [exact Hd|]. intros k t Hk Ht. apply (Hw k Hk). exact Ht.
    - intros s2 e0 H0. apply H0.
  Qed.
  Theorem C273_likelihood plan sparse elbo lowest draws W X s s' q' seen : 0 < K -> (forall d t, d < D -> t < T -> (0 <= W d t)%R) -> (exists t, occurs T D W t) ->
    weights K T D W (u_vocab s) -> (forall k, k < K -> (vsum T (u_vocab s k) <= 1)%R) -> train plan sparse elbo lowest draws W X s = Ok (s', q', seen) ->
    (vsum D (fun d => log_like K T (u_vocab s) (W d) (draws d)) <= vsum D (fun d => log_like K T (u_vocab s') (W d) (draws d)))%R.
  Proof.
    intros HK HW HO Hv H1 E. destruct (train_shape _ _ _ _ _ _ _ _ _ _ _ E) as (_ & _ & _ & omA & e' & back & _ & EL & _ & _).
    match type of EL with context [Build_uyv ?a ?o ?y ?oy ?sy ?u ?v ?c] => set (s0 := Build_uyv a o y oy sy u v c) in EL end.
    change (weights K T D W (u_vocab s0)) in Hv. change (forall k, k < K -> (vsum T (u_vocab s0 k) <= 1)%R) in H1. change (u_vocab s) with (u_vocab s0).
    clearbody s0. set (L := fun v => vsum D (fun d => log_like K T v (W d) (draws d))).
    refine (proj2 (proj2 (proj2 (loop_keeps _ _ _ _ _ _ _ _ _ _ _ _ _ _ plan elbo W X
      (fun s1 e => weights K T D W (u_vocab s1) /\ (e = fun d k => exp (draws d k)) /\ (forall k, k < K -> (vsum T (u_vocab s1 k) <= 1)%R) /\ (L (u_vocab s0) <= L (u_vocab s1))%R)
      _ _ _ _ _ _ _ _ _ _ _ _ (conj Hv (conj eq_refl (conj H1 (Rle_refl _)))) EL)))).
    intros s2 e0 s1 e1 (H0 & He & Hr & HL) E1. destruct (iter_shape _ _ _ _ _ _ _ E1) as (_ & -> & Ev & _). rewrite He, exp_ln_exp in *.
    pose proof (vocab_weights K T D W draws HK HW HO (u_vocab s2) H0) as Hw. pose proof (vocab_distributions K T D W draws HK HW HO (u_vocab s2) H0) as Hd.
    pose proof (vocab_grows K T D W draws HK HW HO (u_vocab s2) H0 Hr) as Hg. rewrite <- Ev in Hw, Hd, Hg.
    split; [exact Hw|]. split; [reflexivity|]. split; [intros k Hk; right; apply (Hd k Hk)|]. unfold L in *. lra.
  Qed.

  (** ** C272: the maps *)
  Theorem C272_maps fast W X s e s' e' : 0 < Q -> 0 < P -> 0 < F -> (0 < sigmaSq /\ 0 < alphaSq /\ 0 < kappaSq /\ 0 < tauSq)%R ->
    correct_inv inv -> correct_sylvester Q P sylvester -> correct_solve (P * Q) solve ->
    inv F (fun f g => scalar (1 / alphaSq) f g + gram D X f g)%R = Some (u_omA s) ->
    fast = false \/ inv Q (gram K (u_U s)) <> None ->
    iter fast W X s e = Ok (s', e') ->
    (forall Z, (latent_fit K Q F P (u_U s) (u_V s) (u_A s) (alphaSq * sigmaSq / (tauSq * kappaSq)) (u_Y s')
                <= latent_fit K Q F P (u_U s) (u_V s) (u_A s) (alphaSq * sigmaSq / (tauSq * kappaSq)) Z)%R) /\
    (forall k b, let pull := fun f => vsum Q (fun q => vsum P (fun p => u_U s k q * u_Y s' q p * u_V s f p))%R in
       (penalised D F 1 (1 / alphaSq) X (fun d => ln (e d k)) pull (u_A s' k) <= penalised D F 1 (1 / alphaSq) X (fun d => ln (e d k)) pull b)%R) /\
    (forall k b, let B := fun f q => vsum P (fun p => u_Y s' q p * u_V s f p)%R in
       let c := vsum P (fun p => vsum P (fun r => u_omY s' p r * vsum F (fun f => u_V s f r * u_V s f p)))%R in
       (ridge F Q B (fun q r => c * u_sigY s' q r) (u_A s' k) (u_U s' k) <= ridge F Q B (fun q r => c * u_sigY s' q r) (u_A s' k) b)%R) /\
    (forall f b, let B := fun k p => vsum Q (fun q => u_U s' k q * u_Y s' q p)%R in
       let c := vsum Q (fun q => vsum Q (fun r => u_sigY s' q r * vsum K (fun k => u_U s' k r * u_U s' k q)))%R in
       (ridge K P B (fun p r => c * u_omY s' p r) (fun k => u_A s' k f) (u_V s' f) <= ridge K P B (fun p r => c * u_omY s' p r) (fun k => u_A s' k f) b)%R).
  Proof.
    intros HQ HP HF Hsq Hinv Hsyl Hsol HA Hfast E. destruct (iter_shape _ _ _ _ _ _ _ E) as (_ & _ & _ & ES & EO & EY & EA & EU & EV).
    assert (Hpos : (0 < 1 / tauSq * (1 / kappaSq))%R /\ (0 < 1 / alphaSq * (1 / sigmaSq))%R).
    { destruct Hsq as (H1 & H2 & H3 & H4). split; apply Rmult_lt_0_compat; apply Rdiv_lt_0_compat; lra. }
    destruct Hpos as [Hp1 Hp2].
    destruct (Hinv _ _ _ ES) as [SR SL]. destruct (Hinv _ _ _ EO) as [OR OL]. destruct (Hinv _ _ _ HA) as [AR AL].
    assert (SY : symm Q (u_sigY s')) by (refine (inverse_symm Q _ _ _ SR SL); apply shifted_symm).
    assert (PY : psd Q (u_sigY s')) by (apply posdef_psd; refine (inverse_posdef Q _ _ _ SR SL); apply shifted_posdef; lra).
    assert (SO : symm P (u_omY s')) by (refine (inverse_symm P _ _ _ OR OL); apply shifted_symm).
    assert (PO : psd P (u_omY s')) by (apply posdef_psd; refine (inverse_posdef P _ _ _ OR OL); apply shifted_posdef; lra).
    split; [|split; [|split]].
    - rewrite EY. apply latent_optimal.
      + left. apply ratio_pos. exact Hsq.
      + exact (new_Y_ok K Q F P sigmaSq alphaSq kappaSq tauSq inv pinv sylvester solve HQ HP HF Hsq Hinv Hsyl Hsol fast (u_U s) (u_V s) (u_A s) Hfast).
    - intros k b. cbv zeta. rewrite EA. exact (new_A_ok Q F P D sigmaSq alphaSq kappaSq tauSq Hsq (u_omA s) X (fun d k => ln (e d k)) (u_U s) (u_Y s') (u_V s) k AR AL b).
    - intros k b. cbv zeta. unfold new_U in EU. cbv zeta in EU.
      match type of EU with context [la_inv inv Q ?M] => destruct (la_inv_cases Q M) as [[N [EN IN]]|[EN _]]; rewrite EN in EU end; cbn [bind] in EU; [|discriminate].
      injection EU as <-. destruct (Hinv _ _ _ IN) as [NR NL].
      exact (base_ok Q F (fun q f => vsum P (fun p => u_Y s' q p * u_V s f p))%R (u_sigY s') _ (u_A s' k) N SY PY (trace_nonneg P F (u_omY s') (u_V s) PO) NR NL b).
    - intros f b. cbv zeta. unfold new_V in EV. cbv zeta in EV.
      match type of EV with context [la_inv inv P ?M] => destruct (la_inv_cases P M) as [[N [EN IN]]|[EN _]]; rewrite EN in EV end; cbn [bind] in EV; [|discriminate].
      injection EV as <-. destruct (Hinv _ _ _ IN) as [NR NL].
      exact (base_ok P K (fun p k => vsum Q (fun q => u_U s' k q * u_Y s' q p))%R (u_omY s') _ (fun k => u_A s' k f) N SO PO (trace_nonneg Q K (u_sigY s') (u_U s') PY) NR NL b).
  Qed.

  (** ** C276: outcomes of training *)
  Theorem C276_outcomes plan elbo lowest draws W X s : (forall i s, exists b, elbo i s = Ok b) -> D <> 1 ->
    let run := train plan true elbo lowest draws W X s in
    run = Raise LinAlgError \/
    (p_plot plan = true /\ 0 < p_logs plan /\ run = Raise NameError) \/
    (p_plot plan = true /\ p_logs plan = 0 /\ run = Raise UnboundLocalError) \/
    (p_plot plan = false /\ exists out, run = Ok out).
  Proof.
    intros HE HD. cbv zeta. unfold uyv_train. destruct (Nat.eqb_spec D 1); [contradiction|]. cbn [negb]. unfold gram_inverse.
    match goal with |- context [la_inv inv F ?M] => destruct (la_inv_cases F M) as [[N1 [-> _]]|[-> _]] end; cbn [bind]; [|left; reflexivity].
    cbv zeta. match goal with |- context [loop plan ?st elbo W X 0 ?n ?l lowest [] ?s0 ?e0] =>
      destruct (loop_cases plan elbo W X st HE n 0 l lowest [] s0 e0) as [[[[s1 e1] back] ->]| ->] end; cbn [bind]; [|left; reflexivity].
    destruct (p_plot plan); [|right; right; right; split; [reflexivity|eexists; reflexivity]].
    destruct (Nat.ltb_spec 0 (p_logs plan)); [right; left|right; right; left]; (split; [reflexivity|]); (split; [lia|reflexivity]).
  Qed.
  Theorem C276_default_plan_refuted iterations epsilon sparse elbo lowest draws W X s out :
    train (new_plan iterations epsilon) sparse elbo lowest draws W X s <> Ok out.
  Proof. destruct out as [[s' q'] seen]. intros E. destruct (train_shape _ _ _ _ _ _ _ _ _ _ _ E) as (_ & _ & H & _). discriminate. Qed.
  Theorem C276_input_refuted plan elbo lowest draws W X s :
    (D = 1 -> forall sparse, train plan sparse elbo lowest draws W X s = Raise TypeError) /\
    (D <> 1 -> train plan false elbo lowest draws W X s = Raise AttributeError).
  Proof. unfold uyv_train. split; intros HD; [subst D; reflexivity|]. destruct (Nat.eqb_spec D 1); [contradiction|reflexivity]. Qed.

  (** ** C277: when the bound is measured *)
  Theorem C277_schedule plan sparse elbo lowest draws W X s s' q' seen : 2 <= p_iterations plan -> 1 <= p_logs plan -> (p_epsilon plan <= 0)%R ->
    train plan sparse elbo lowest draws W X s = Ok (s', q', seen) ->
    hd 0 seen = 1 /\ List.last seen 0 = p_iterations plan - 1 /\ length seen <= p_logs plan + 1 /\ falling (rev seen) /\
    spaced (fun x => Z.min (ceil (INR x * Rpower (INR (p_iterations plan)) (1 / INR (p_logs plan)))) (Z.of_nat (p_iterations plan) - 1)) (rev seen).
  Proof.
    intros Hn Hl He E. destruct (train_shape _ _ _ _ _ _ _ _ _ _ _ E) as (_ & _ & _ & omA & e' & back & _ & EL & -> & _).
    replace (0 <? p_logs plan) with true in EL by lia. rewrite rev_involutive.
    destruct (loop_measures K Q F P T D sigmaSq alphaSq kappaSq tauSq inv pinv sylvester solve plan elbo W X Hn Hl He
      (p_iterations plan) 0 1%Z lowest [] _ _ s' e' back ltac:(lia) ltac:(lia) ltac:(lia) ltac:(lia) Logic.I ltac:(constructor) ltac:(cbn [length]; lia)
      ltac:(left; cbn [length pow]; lra) Logic.I eq_refl EL) as (H1 & H2 & H3 & H4 & H5).
    assert (HB : back <> []) by (intros ->; cbn [hd] in H3; lia).
    rewrite rev_length. split; [|split; [|split; [exact H2|split; [exact H1|exact H5]]]].
    - rewrite <- H4. destruct (exists_last HB) as [l [x ->]]. rewrite rev_app_distr. cbn [rev app hd]. rewrite last_last. reflexivity.
    - rewrite <- H3. destruct back as [|x l]; [contradiction|]. cbn [rev hd]. apply last_last.
  Qed.
  (** A single iteration is never measured. *)
  Theorem C277_single_refuted plan sparse elbo lowest draws W X s s' q' seen : p_iterations plan = 1 ->
    train plan sparse elbo lowest draws W X s = Ok (s', q', seen) -> seen = [].
  Proof.
    intros Hn E. destruct (train_shape _ _ _ _ _ _ _ _ _ _ _ E) as (_ & _ & _ & omA & e' & back & _ & EL & -> & _).
    rewrite Hn in EL. cbn [uyv_loop] in EL. match type of EL with bind ?m _ = _ => destruct m as [[s1 e1]|x] end; cbn [bind] in EL; [|discriminate].
    replace (Z.of_nat 0 =? (if (0 <? p_logs plan)%nat then 1 else Z.of_nat 1 + 1))%Z with false in EL by (destruct (0 <? p_logs plan); reflexivity).
    injection EL as _ _ <-. reflexivity.
  Qed.
End runs.

(** ** C274 and C275: queries *)
Theorem C274_never_worse K T sigmaSq v w xa n iterations r m u s xi : 0 < K -> (0 < sigmaSq)%R -> covers K T v -> (forall t, t < T -> (0 <= w t)%R) ->
  IZR n = vsum T w -> (0 < n)%Z -> stands K r m u s xi -> exists r' m' u' s' xi',
  query_loop K T sigmaSq iterations n w v xa r = Some r' /\ stands K r' m' u' s' xi' /\
  (objective K T v xa (diag (fun _ => 1 / sigmaSq)) w s xi m u <= objective K T v xa (diag (fun _ => 1 / sigmaSq)) w s' xi' m' u')%R.
Proof. intros HK Hs Hv Hw Hn Hn0 HS. apply query_grows; assumption. Qed.
Lemma new_doc_stands K draws : stands K (new_doc draws) draws (fun _ => 1%R) 0 (fun _ => 1%R).
Proof.
  split; [reflexivity|]. intros k _. cbn [new_doc r_exp r_nu r_lxi]. split; [reflexivity|]. split; [lra|]. split; [lra|]. split; [lra|]. apply neg_jakkola_is. lra.
Qed.
(** The document with words 2 and 1, from draws of one half. *)
Example C274_case : exists r' m' u' s' xi',
  query_loop 2 2 1 5 3 (fun t => if t =? 0 then 2 else 1)%R two_topics (fun _ => 0%R) (new_doc (fun _ => (1 / 2)%R)) = Some r' /\ stands 2 r' m' u' s' xi' /\
  (objective 2 2 two_topics (fun _ => 0%R) (diag (fun _ => 1 / 1)) (fun t => if t =? 0 then 2 else 1) 0 (fun _ => 1) (fun _ => 1 / 2) (fun _ => 1)
   <= objective 2 2 two_topics (fun _ => 0%R) (diag (fun _ => 1 / 1)) (fun t => if t =? 0 then 2 else 1) s' xi' m' u')%R.
Proof.
  apply C274_never_worse; [lia|lra| | | |lia|apply new_doc_stands].
  - split; [intros k t _ _|intros t _; exists 0; split; [lia|]]; unfold two_topics; repeat destruct (_ =? _); lra.
  - intros t _. destruct (t =? 0); lra.
  - unfold vsum. cbn [seq map rsum Nat.eqb]. lra.
Qed.
(** Documents without words end as numbers that are none. *)
Theorem C274_empty_refuted K T sigmaSq v w xa iterations r : 0 < iterations -> query_loop K T sigmaSq iterations 0 w v xa r = None.
Proof. destruct iterations as [|i]; [lia|reflexivity]. Qed.

Theorem C275_best_updates K T sigmaSq v w xa n r m u s xi : 0 < K -> (0 < sigmaSq)%R -> covers K T v -> (forall t, t < T -> (0 <= w t)%R) ->
  IZR n = vsum T w -> (0 < n)%Z -> stands K r m u s xi -> exists r' m' u' s' xi',
  query_iter K T sigmaSq n w v xa r = Some r' /\ stands K r' m' u' s' xi' /\
  let goal := objective K T v xa (diag (fun _ => 1 / sigmaSq)%R) w in
  (goal s xi m u <= goal s xi m' u)%R /\
  (forall x, (forall k, k < K -> (0 < x k)%R) -> (goal s x m' u <= goal s xi' m' u)%R) /\
  (forall t, (goal t xi' m' u <= goal s' xi' m' u)%R) /\
  (forall z, (forall k, k < K -> (0 < z k)%R) -> (goal s' xi' m' z <= goal s' xi' m' u')%R).
Proof.
  intros HK Hs Hv Hw Hn Hn0 HS. destruct (query_step K T sigmaSq v w xa n HK Hs Hv Hw Hn Hn0 r m u s xi HS) as (r' & m' & u' & s' & xi' & E & H1 & _ & H2 & H3 & H4 & H5).
  exists r', m', u', s', xi'. split; [exact E|]. split; [exact H1|]. cbv zeta. split; [exact H2|]. split; [exact H3|]. split; [exact H4|exact H5].
Qed.
(** The means are at rest only where the objective is stationary. *)
Theorem C275_rest K T sigmaSq v w xa n r m u s xi : 0 < K -> (0 < sigmaSq)%R -> covers K T v -> (forall t, t < T -> (0 <= w t)%R) ->
  IZR n = vsum T w -> (0 < n)%Z -> stands K r m u s xi ->
  (forall r', query_iter K T sigmaSq n w v xa r = Some r' -> forall k, k < K -> r_exp r' k = r_exp r k) ->
  forall k, k < K -> (expected K T v w m k - IZR n * (1 / 2 + 2 * jaakkola (xi k) * (m k - s)) - (m k - xa k) / sigmaSq = 0)%R.
Proof.
  intros HK Hs Hv Hw Hn Hn0 HS HR k Hk. destruct (query_step K T sigmaSq v w xa n HK Hs Hv Hw Hn Hn0 r m u s xi HS) as (r' & m' & u' & s' & xi' & E & H1 & Hm & _).
  assert (EM : m' k = m k).
  { pose proof (HR r' E k Hk) as ER. destruct H1 as [_ H1]. destruct (H1 k Hk) as [E1 _]. destruct HS as [_ HS]. destruct (HS k Hk) as [E2 _].
    apply exp_inv. rewrite <- E1, <- E2. exact ER. }
  pose proof (Hm k Hk) as S0. rewrite !diag_dot in S0 by exact Hk. rewrite EM, <- Hn in S0. unfold Rdiv in *. lra.
Qed.

(** ** Concrete runs *)
Definition every (m : nat) (M : mat) : option mat := Some (fun i j => if i =? j then (/ M i i)%R else 0%R).
Definition quiet (iterations logs : nat) : old_plan := {| p_iterations := iterations; p_epsilon := 0; p_logs := logs; p_plot := false; p_fast := false |}.
Definition flat : uyv := {| u_A := fun _ _ => 1%R; u_omA := fun _ _ => 1%R; u_Y := fun _ _ => 1%R; u_omY := fun _ _ => 1%R; u_sigY := fun _ _ => 1%R;
  u_U := fun _ _ => 1%R; u_V := fun _ _ => 1%R; u_vocab := fun _ _ => (1 / 2)%R |}.
Notation small_train plan W := (uyv_train 2 1 1 1 2 2 1 1 1 1 every (fun M => M) (fun _ _ C => C) (fun _ b => b) plan true (fun _ _ => Ok 0%R) 0 (fun _ _ => 0%R) W (fun _ _ => 0%R) flat).
Lemma small_runs iterations logs W : exists out, small_train (quiet iterations logs) W = Ok out.
Proof.
  unfold uyv_train. cbn [Nat.eqb negb]. unfold gram_inverse, la_inv, every. cbn [bind]. cbv zeta.
  match goal with |- context [uyv_loop 2 1 1 1 2 2 1 1 1 1 ?i ?p ?sy ?so ?pl ?st ?el W ?X 0 ?n ?l ?lo [] ?s0 ?e0] =>
    destruct (loop_succeeds 2 1 1 1 2 2 1 1 1 1 i p sy so pl el W X st ltac:(intros; eexists; reflexivity) ltac:(intros; eexists; reflexivity) n 0 l lo [] s0 e0) as [[[s1 e1] b] E] end.
  unfold every in E. rewrite E. cbn [bind]. eexists. reflexivity.
Qed.
Definition one_word (t0 : nat) : mat := fun _ t => if t =? t0 then 1%R else 0%R.
(** Documents of one word and documents of the other get the same topics. *)
Theorem C271_fitted_refuted : exists s1 q1 seen1 s2 q2 seen2,
  small_train (quiet 10 0) (one_word 0) = Ok (s1, q1, seen1) /\ small_train (quiet 10 0) (one_word 1) = Ok (s2, q2, seen2) /\
  (forall d k, u_exp q1 d k = u_exp q2 d k) /\ one_word 0 0 0 <> one_word 1 0 0.
Proof.
  destruct (small_runs 10 0 (one_word 0)) as [[[s1 q1] seen1] E1]. destruct (small_runs 10 0 (one_word 1)) as [[[s2 q2] seen2] E2].
  exists s1, q1, seen1, s2, q2, seen2. split; [exact E1|]. split; [exact E2|]. split; [|unfold one_word; cbn [Nat.eqb]; lra].
  intros d k. destruct (C271_topics_kept _ _ _ _ _ _ _ _ _ _ _ _ _ _ _ _ _ _ _ _ _ _ _ _ _ E1 d k) as [-> _].
  destruct (C271_topics_kept _ _ _ _ _ _ _ _ _ _ _ _ _ _ _ _ _ _ _ _ _ _ _ _ _ E2 d k) as [-> _]. reflexivity.
Qed.
Lemma small_weights t0 : t0 < 2 -> (exists t, occurs 2 2 (one_word t0) t) /\ weights 2 2 2 (one_word t0) (u_vocab flat).
Proof.
  intros Ht. split.
  - exists t0. split; [exact Ht|]. exists 0. split; [lia|]. unfold one_word. rewrite Nat.eqb_refl. lra.
  - intros k _. cbn [flat u_vocab]. split; intros; lra.
Qed.
Example C273_case : exists s' q' seen, small_train (quiet 3 0) (one_word 1) = Ok (s', q', seen) /\ distributions 2 2 (u_vocab s') /\
  (vsum 2 (fun d => log_like 2 2 (u_vocab flat) (one_word 1 d) (fun _ => 0)) <= vsum 2 (fun d => log_like 2 2 (u_vocab s') (one_word 1 d) (fun _ => 0)))%R.
Proof.
  destruct (small_runs 3 0 (one_word 1)) as [[[s1 q1] seen1] E1]. destruct (small_weights 1 ltac:(lia)) as [HO Hw].
  assert (HW : forall d t, d < 2 -> t < 2 -> (0 <= one_word 1 d t)%R) by (intros; unfold one_word; destruct (_ =? _); lra).
  exists s1, q1, seen1. split; [exact E1|]. split.
  - refine (proj1 (C273_distributions _ _ _ _ _ _ _ _ _ _ _ _ _ _ _ _ _ _ _ _ _ _ _ _ _ _ HW HO Hw _ E1)); [lia|cbn; lia].
  - refine (C273_likelihood _ _ _ _ _ _ _ _ _ _ _ _ _ _ _ _ _ _ (fun _ _ => 0%R) _ _ _ _ _ _ _ HW HO Hw _ E1); [lia|].
    intros k _. unfold vsum. cbn [flat u_vocab seq map rsum]. lra.
Qed.
(** A new model's words are no distributions. *)
Theorem C273_new_model K Q P T sigmaSq alphaSq kappaSq tauSq eps U Y V draws s : (forall k t, k < K -> t < T -> (0 < draws k t)%R) -> (0 < eps)%R -> 0 < T ->
  new_model Q P T sigmaSq alphaSq kappaSq tauSq eps U Y V draws = Ok s ->
  forall k, k < K -> (forall t, t < T -> (0 < u_vocab s k t)%R) /\ vsum T (u_vocab s k) = (1 + INR T * eps)%R.
Proof.
  intros Hd He HT E k Hk. unfold new_model in E. destruct (rltb _ _); [discriminate|]. injection E as <-. cbn [u_vocab].
  assert (HS : (0 < vsum T (draws k))%R) by (apply vsum_pos; [exact HT|intros; apply Hd; assumption]). split.
  - intros t Ht. unfold norm_rows. pose proof (Rdiv_lt_0_compat _ _ (Hd k t Hk Ht) HS). lra.
  - rewrite vsum_plus, vsum_const. f_equal. unfold norm_rows, Rdiv. rewrite vsum_scale_r. apply Rinv_r. lra.
Qed.
Theorem C273_new_model_refuted : exists s, new_model 1 1 2 1 1 1 1 (1 / 1024) (fun _ _ => 1%R) (fun _ _ => 1%R) (fun _ _ => 1%R) (fun _ _ => (1 / 2)%R) = Ok s /\
  ~ distributions 1 2 (u_vocab s).
Proof.
  destruct (new_model 1 1 2 1 1 1 1 (1 / 1024) (fun _ _ => 1%R) (fun _ _ => 1%R) (fun _ _ => 1%R) (fun _ _ => (1 / 2)%R)) as [s|x] eqn:E.
  - exists s. split; [reflexivity|]. intros H. pose proof (C273_new_model 1 1 1 2 1 1 1 1 (1 / 1024) (fun _ _ => 1%R) (fun _ _ => 1%R) (fun _ _ => 1%R) (fun _ _ => (1 / 2)%R) s ltac:(intros; lra) ltac:(lra) ltac:(lia) E 0 ltac:(lia)) as [_ S0].
    destruct (H 0 ltac:(lia)) as [_ S1]. rewrite S1 in S0. cbn [INR] in S0. lra.
  - exfalso. unfold new_model in E. replace (rltb 1 (1 * 1 / (1 * 1))) with false in E; [discriminate|]. symmetry. apply rltb_false. lra.
Qed.
(** Two measurements of four iterations were asked for; there are three. *)
Theorem C277_count_refuted : exists s' q', small_train (quiet 4 2) (one_word 0) = Ok (s', q', [1; 2; 3]).
Proof.
  destruct (small_runs 4 2 (one_word 0)) as [[[s1 q1] seen] E].
  destruct (C277_schedule _ _ _ _ _ _ _ _ _ _ _ _ _ _ (quiet 4 2) _ _ _ _ _ _ _ _ _ _ ltac:(cbn; lia) ltac:(cbn; lia) ltac:(cbn; lra) E) as (H1 & H2 & H3 & H4 & H5).
  cbn [quiet p_iterations p_logs] in *.
  assert (ER : Rpower (INR 4) (1 / INR 2) = 2%R).
  { replace (INR 4) with (2 * 2)%R by (cbn [INR]; lra). replace (1 / INR 2)%R with (/ 2)%R by (cbn [INR]; lra). rewrite Rpower_sqrt by lra. apply sqrt_square. lra. }
  rewrite ER in H5.
  assert (C1 : ceil (INR 1 * 2) = 2%Z) by (apply ceil_of; cbn [INR]; lra). assert (C2 : ceil (INR 2 * 2) = 4%Z) by (apply ceil_of; cbn [INR]; lra).
  assert (ES : seen = [1; 2; 3]); [|subst seen; exists s1, q1; exact E].
  destruct seen as [|a [|b [|c [|d l]]]]; cbn [hd length] in H1, H3; [lia| | | |cbn [length] in H3; lia]; subst a; cbn [rev app spaced List.last] in H2, H5.
  - lia.
  - destruct H5 as [H5 _]. rewrite C1 in H5. lia.
  - destruct H5 as (H6 & H5 & _). rewrite C1 in H5. assert (b = 2) by lia. subst b. rewrite C2 in H6. assert (c = 3) by lia. subst c. reflexivity.
Qed.
Example C276_case : exists out, small_train (quiet 2 1) (one_word 0) = Ok out.
Proof. apply small_runs. Qed.
Example C276_default_case : small_train (new_plan 2 0) (one_word 0) = Raise UnboundLocalError.
Proof.
  destruct (C276_outcomes 2 1 1 1 2 2 1 1 1 1 every (fun M => M) (fun _ _ C => C) (fun _ b => b) (new_plan 2 0) (fun _ _ => Ok 0%R) 0 (fun _ _ => 0%R) (one_word 0) (fun _ _ => 0%R) flat
    ltac:(intros; eexists; reflexivity) ltac:(lia)) as [E|[[_ [H _]]|[(_ & _ & E)|[H _]]]]; [|cbn in H; lia|exact E|discriminate].
  exfalso. unfold uyv_train in E. cbn [Nat.eqb negb] in E. unfold gram_inverse, la_inv, every in E. cbn [bind] in E. cbv zeta in E.
  match type of E with context [uyv_loop 2 1 1 1 2 2 1 1 1 1 ?i ?p ?sy ?so ?pl ?st ?el ?W ?X 0 ?n ?l ?lo [] ?s0 ?e0] =>
    destruct (loop_succeeds 2 1 1 1 2 2 1 1 1 1 i p sy so pl el W X st ltac:(intros; eexists; reflexivity) ltac:(intros; eexists; reflexivity) n 0 l lo [] s0 e0) as [[[s1 e1] b] EL] end.
  unfold every in EL. rewrite EL in E. cbn in E. discriminate.
Qed.

(** Exact solvers for one dimension. *)
Definition inv_one (m : nat) (M : mat) : option mat :=
  if m =? 1 then if Req_EM_T (M 0 0) 0 then None else Some (fun _ _ => (/ M 0%nat 0%nat)%R) else None.
Lemma inv_one_correct : correct_inv inv_one.
Proof.
  intros m M N E. unfold inv_one in E. destruct (Nat.eqb_spec m 1) as [->|]; [|discriminate]. destruct (Req_EM_T (M 0 0) 0) as [|Hne]; [discriminate|].
  injection E as <-. split; intros i j Hi Hj; assert (i = 0) by lia; assert (j = 0) by lia; subst; unfold vsum, eye; cbn [seq map rsum Nat.eqb]; field; exact Hne.
Qed.
Lemma la_one M : M 0 0 <> 0%R -> la_inv inv_one 1 M = Ok (fun _ _ => (/ M 0%nat 0%nat)%R).
Proof. intros H. unfold la_inv, inv_one. cbn [Nat.eqb]. destruct (Req_EM_T (M 0 0) 0); [contradiction|reflexivity]. Qed.
Definition sylvester_one : mat -> mat -> mat -> mat := fun M N C q p => (C q p / (M 0%nat 0%nat + N 0%nat 0%nat))%R.
Definition solve_one : mat -> vec -> vec := fun M b i => (b i / M 0%nat 0%nat)%R.
Lemma posdef_one M : posdef 1 M -> (0 < M 0%nat 0%nat)%R.
Proof. intros H. pose proof (H (fun _ => 1%R) ltac:(exists 0; split; [lia|lra])) as H0. unfold quad, vsum in H0. cbn [seq map rsum] in H0. lra. Qed.
Lemma sylvester_one_correct : correct_sylvester 1 1 sylvester_one.
Proof.
  intros M N C _ HM _ HN q p Hq Hp. assert (q = 0) by lia. assert (p = 0) by lia. subst. pose proof (posdef_one M HM).
  pose proof (HN (fun _ => 1%R)) as H0. unfold quad, vsum in H0. cbn [seq map rsum] in H0.
  unfold sylvester_one, vsum. cbn [seq map rsum]. field. lra.
Qed.
Lemma solve_one_correct : correct_solve (1 * 1) solve_one.
Proof.
  intros M b _ HM i Hi. assert (i = 0) by lia. subst. pose proof (posdef_one M HM). unfold solve_one, vsum. cbn [Nat.mul Nat.add seq map rsum]. field. lra.
Qed.
Example C272_case : exists s' e', inv_one 1 (fun f g => scalar (1 / 1) f g + gram 2 (fun _ _ => 0%R) f g)%R <> None /\ inv_one 1 (gram 2 (u_U flat)) <> None /\
  uyv_iter 2 1 1 1 2 2 1 1 1 1 inv_one (fun M => M) sylvester_one solve_one false (one_word 0) (fun _ _ => 0%R) flat (fun _ _ => 1%R) = Ok (s', e') /\
  u_Y s' 0 0 = (2 / 3)%R /\ u_A s' 1 0 = (2 / 3)%R /\ u_U s' 1 0 = (8 / 11)%R /\ u_V s' 0 0 = 1%R.
Proof.
  assert (HG : gram 2 (u_U flat) 0 0 = 2%R) by (unfold gram, vsum; cbn [flat u_U seq map rsum]; lra).
  unfold uyv_iter. cbv zeta.
  rewrite la_one by (unfold scalar, gram, vsum; cbn [flat u_U seq map rsum Nat.eqb]; lra). cbn [bind].
  rewrite la_one by (unfold scalar, gram, vsum; cbn [flat u_V seq map rsum Nat.eqb]; lra). cbn [bind].
  match goal with |- context [new_Y ?a ?b ?c ?d ?e ?f ?g ?h ?i ?j ?k ?l ?m ?n ?o] => set (Y := new_Y a b c d e f g h i j k l m n o) end.
  assert (EY : Y 0 0 = (2 / 3)%R).
  { unfold Y, new_Y. cbv zeta. unfold inv_one at 1. cbn [Nat.eqb]. destruct (Req_EM_T (gram 2 (u_U flat) 0 0) 0) as [H|_]; [lra|].
    unfold sylvester_one, ratio, inner, gram, vsum. cbn [flat u_U u_V u_A seq map rsum]. field. }
  match goal with |- context [new_A ?a ?b ?c ?d ?e ?f ?g ?h ?i ?j ?k] => set (A := new_A a b c d e f g h i j k) end.
  assert (EA : forall k, A k 0 = (2 / 3)%R).
  { intros k. unfold A, new_A, outer, vsum. cbn [flat u_omA u_U u_V seq map rsum]. rewrite EY. field. }
  unfold new_U. cbv zeta. rewrite la_one by (unfold scalar, gram, vsum; cbn [flat u_U u_V seq map rsum Nat.eqb]; rewrite EY; lra). cbn [bind].
  match goal with |- context [new_V 2 1 1 inv_one A ?u Y _ _] => set (U := u) end.
  assert (EU : forall k, U k 0 = (8 / 11)%R).
  { intros k. unfold U, scalar, gram, vsum. cbn [flat u_U u_V seq map rsum Nat.eqb]. rewrite EY, EA. field. }
  unfold new_V. cbv zeta. rewrite la_one by (unfold scalar, gram, vsum; cbn [flat u_U u_V seq map rsum Nat.eqb]; rewrite !EY, !EU; lra). cbn [bind].
  eexists. eexists. split; [unfold inv_one; cbn [Nat.eqb]; destruct (Req_EM_T _ 0) as [H|]; [unfold scalar, gram, vsum in H; cbn [seq map rsum Nat.eqb] in H; lra|discriminate]|].
  split; [unfold inv_one; cbn [Nat.eqb]; destruct (Req_EM_T _ 0) as [H|]; [lra|discriminate]|].
  split; [reflexivity|]. cbn [u_Y u_A u_U u_V]. split; [exact EY|]. split; [apply EA|]. split; [apply EU|].
  unfold scalar, gram, vsum. cbn [flat u_U u_V seq map rsum Nat.eqb]. rewrite !EY, !EU, !EA. field.
Qed.

Print Assumptions C271_topics_kept.
Print Assumptions C273_distributions.
Print Assumptions C273_likelihood.
Print Assumptions C272_maps.
Print Assumptions C276_outcomes.
Print Assumptions C276_default_plan_refuted.
Print Assumptions C276_input_refuted.
Print Assumptions C277_schedule.
Print Assumptions C277_single_refuted.
Print Assumptions C274_never_worse.
Print Assumptions C274_empty_refuted.
Print Assumptions C275_best_updates.
Print Assumptions C275_rest.
Print Assumptions C271_fitted_refuted.
Print Assumptions C273_new_model.
Print Assumptions C273_new_model_refuted.
Print Assumptions C277_count_refuted.
