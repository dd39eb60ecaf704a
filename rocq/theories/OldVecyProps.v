(** * Property C286: the model of old/sidetopic_uv_vecy.py *)
From Coq Require Import List String ZArith Arith Bool Lia.
From Verif Require Import Base OldVecyModel.
Import ListNotations.
Open Scope nat_scope.

Section vecy.
  Variable value : Type.
  Lemma find_in (x : string) (e : list (string * value)) v : find value x e = Some v -> In x (map fst e).
  Proof.
    induction e as [|[y w] e IH]; cbn [find map fst In]; [discriminate|]. destruct (String.eqb x y) eqn:E; [|intros H; right; exact (IH H)]. apply String.eqb_eq in E. intros _. left. congruence.
  Qed.
  Lemma combine_names (xs : list string) : forall (vs : list value) x, In x (map fst (combine xs vs)) -> In x xs.
  Proof. induction xs as [|y xs IH]; intros [|v vs] x; cbn; try tauto. intros [H|H]; [left; exact H|right; exact (IH vs x H)]. Qed.
  Lemma each_fails (f : string -> res value) xs x e : In x xs -> f x = Raise e -> exists e', each value f xs = Raise e'.
  Proof.
    induction xs as [|y xs IH]; [contradiction|]. cbn [each In]. intros [->|H] E.
    - rewrite E. exists e. reflexivity.
    - destruct (f y) as [v|e']; cbn [bind]; [|exists e'; reflexivity]. destruct (IH H E) as [e' ->]. exists e'. reflexivity.
  Qed.
  Lemma each_ok (f : string -> res value) xs : (forall x, In x xs -> exists v, f x = Ok v) -> exists vs, each value f xs = Ok vs.
  Proof.
    induction xs as [|y xs IH]; intros H; [exists []; reflexivity|]. destruct (H y (or_introl eq_refl)) as [v E]. destruct (IH (fun x Hx => H x (or_intror Hx))) as [vs E']. exists (v :: vs). cbn [each]. rewrite E. cbn [bind]. rewrite E'. reflexivity.
  Qed.
  Lemma find_some (xs : list string) : forall (vs : list value) x, List.length vs = List.length xs -> In x xs -> exists v, find value x (combine xs vs) = Some v.
  Proof.
    induction xs as [|y xs IH]; intros [|v vs] x L Hx; try discriminate L; [contradiction|]. cbn [combine find]. destruct (String.eqb x y) eqn:E; [exists v; reflexivity|].
    apply IH; [cbn in L; lia|]. destruct Hx as [->|Hx]; [rewrite String.eqb_refl in E; discriminate E|exact Hx].
  Qed.
  Lemma make_ok vals t : make value vals = Ok t -> t = combine fields vals /\ List.length vals = List.length fields.
  Proof. unfold make. destruct (List.length vals =? List.length fields) eqn:E; [|discriminate]. apply Nat.eqb_eq in E. intros H. injection H as <-. split; [reflexivity|exact E]. Qed.

  (** A model of the module that this one builds on has every field that is named. *)
  Theorem C286_fields vals : List.length vals = 18 -> exists m, uyv_state value vals = Ok m /\ forall x, In x fields <-> exists v, attr value m x = Ok v.
  Proof.
    intros L. exists (combine fields vals). split; [unfold uyv_state, make; cbn [fields List.length]; rewrite L; reflexivity|]. intros x. unfold attr. split.
    - intros Hx. destruct (find_some fields vals x ltac:(rewrite L; reflexivity) Hx) as [v ->]. exists v. reflexivity.
    - intros [v H]. destruct (find value x (combine fields vals)) eqn:E; [|discriminate H]. apply (combine_names fields vals). exact (find_in _ _ _ E).
  Qed.
  Lemma missing x vals t : ~ In x fields -> make value vals = Ok t -> attr value t x = Raise AttributeError.
  Proof.
    intros Hx E. destruct (make_ok _ _ E) as [-> _]. unfold attr. destruct (find value x (combine fields vals)) eqn:Ef; [|reflexivity]. exfalso. apply Hx. apply (combine_names fields vals). exact (find_in _ _ _ Ef).
  Qed.
  (** No model can be made, ... *)
  Theorem C286_new vals sigY : List.length vals = 18 -> vecy_new value vals sigY = Raise AttributeError.
  Proof.
    intros L. destruct (C286_fields vals L) as (m & E & H). unfold vecy_new. rewrite E. cbn [bind].
    assert (G : forall x, In x fields -> exists v, attr value m x = Ok v) by (intros x; apply H).
    destruct (each_ok (attr value m) ["K"; "Q"; "F"; "P"; "T"; "A"; "varA"; "Y"; "omY"]%string) as [v1 ->]; [intros x Hx; apply G; cbn [fields In] in *; tauto|]. cbn [bind each].
    destruct (G "U"%string) as [u ->]; [cbn; tauto|]. destruct (G "V"%string) as [v ->]; [cbn; tauto|]. destruct (G "vocab"%string) as [w ->]; [cbn; tauto|]. cbn [bind].
    rewrite (missing "tau" vals m); [reflexivity| |exact E]. cbn. intuition discriminate.
  Qed.
  (** ... no model, however it was made, can be trained for any number of iterations, ... *)
  Theorem C286_train vals m iterations setup first globals later finish : make value vals = Ok m ->
    exists e, vecy_train value iterations setup first globals later finish m = Raise e.
  Proof.
    intros E. assert (N : forall v1 v2, name value (combine unpacked v1 ++ combine others v2 ++ combine module_names globals)%list "tau" = Raise NameError).
    { intros v1 v2. unfold name. destruct (find value "tau" _) eqn:Ef; [|reflexivity]. exfalso. apply find_in in Ef. rewrite !map_app, !in_app_iff in Ef.
      destruct Ef as [H|[H|H]]; apply combine_names in H; cbn [unpacked others module_names In] in H; intuition discriminate. }
    unfold vecy_train. destruct (each value (attr value m) fields) as [v1|e]; cbn [bind]; [|exists e; reflexivity]. destruct setup as [v2|e]; cbn [bind]; [|exists e; reflexivity]. destruct iterations as [|i].
    - destruct finish as [[]|e]; cbn [bind]; [|exists e; reflexivity].
      destruct (each_fails (name value (combine unpacked v1 ++ combine others v2 ++ combine module_names globals)%list) ["K"; "Q"; "F"; "P"; "T"; "A"; "omA"; "Y"; "omY"; "sigY"; "U"; "V"; "vocab"; "tau"; "sigma"]%string "tau" NameError) as [e ->];
        [cbn; tauto|apply N|]. exists e. reflexivity.
    - destruct first as [v3|e]; cbn [bind]; [|exists e; reflexivity].
      destruct (each_fails (name value (combine unpacked v1 ++ combine others v3 ++ combine module_names globals)%list) ["iteration"; "X"; "W"; "K"; "Q"; "F"; "P"; "T"; "A"; "omA"; "Y"; "omY"; "sigY"; "sigT"; "U"; "V"; "vocab"; "tau"; "sigma"; "expLmda"; "nu"; "lxi"; "s"; "docLen"]%string "tau" NameError) as [e ->];
        [cbn; tauto|apply N|]. exists e. reflexivity.
  Qed.
  (** ... and none has a bound. *)
  Theorem C286_bound vals m eye rest : make value vals = Ok m -> exists e, vecy_bound value eye rest m = Raise e.
  Proof.
    intros E. unfold vecy_bound. destruct (each value (attr value m) ["K"; "Q"; "F"; "P"; "T"; "A"; "varA"; "Y"; "P"]%string) as [v1|e]; cbn [bind]; [|exists e; reflexivity].
    destruct (each_fails (attr value m) ["sigY"; "sigT"; "U"; "V"; "vocab"; "tau"; "sigma"]%string "tau" AttributeError) as [e ->]; [cbn; tauto|apply (missing "tau" vals m); [cbn; intuition discriminate|exact E]|]. exists e. reflexivity.
  Qed.
End vecy.
(** The claim that a model can be made and trained is false. *)
Theorem C286_usable_refuted : exists vals : list nat, List.length vals = 18 /\ (forall sigY m, vecy_new nat vals sigY <> Ok m) /\
  exists m, make nat vals = Ok m /\ forall iterations setup first globals later finish m', vecy_train nat iterations setup first globals later finish m <> Ok m'.
Proof.
  exists (seq 0 18). split; [reflexivity|]. split; [intros sigY m; rewrite (C286_new nat (seq 0 18) sigY eq_refl); discriminate|].
  eexists. split; [reflexivity|]. intros. destruct (C286_train nat (seq 0 18) _ iterations setup first globals later finish eq_refl) as [e ->]. discriminate.
Qed.
Example C286_case : exists m, make nat (seq 0 18) = Ok m /\ attr nat m "sigT" = Ok 10 /\ attr nat m "tau" = Raise AttributeError.
Proof. eexists. split; [reflexivity|]. split; reflexivity. Qed.

Print Assumptions C286_fields.
Print Assumptions C286_new.
Print Assumptions C286_train.
Print Assumptions C286_bound.
Print Assumptions C286_usable_refuted.
