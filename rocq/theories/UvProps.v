(** * The model with a matrix-variate prior of features and topics: C182-C184. *)
From Coq Require Import List String Arith Bool Lia.
From Verif Require Import Base UvModel.
Import ListNotations.
Open Scope nat_scope.
Open Scope list_scope.

(** ** C182: training *)
Lemma unvec_fails {A} (x : list A) r : unvec x r = Raise (if r =? 0 then ZeroDivisionError else TypeError).
Proof. unfold unvec, true_div. destruct (r =? 0); reflexivity. Qed.
Lemma loop_fails {A} P Q (solve : nat -> res (list A)) rest itr todo : 0 < todo -> exists e, uv_loop P Q solve rest itr todo = Raise e.
Proof.
  intros H. destruct todo as [|todo]; [lia|]. cbn [uv_loop]. destruct (solve itr) as [s|e]; cbn [bind]; [|eexists; reflexivity].
  rewrite unvec_fails. cbn [bind]. eexists. reflexivity.
Qed.
(** Whatever the corpus, the number of features and of iterations, and the linear algebra. *)
Theorem C182_training_never_returns {A V} P Q setup (solve : nat -> res (list A)) rest features covA iterations expMeans (q : tuple V) o :
  uv_train P Q setup solve rest features covA iterations expMeans q <> Ok o.
Proof.
  unfold uv_train. intros E. destruct (getattr q "means"%string) as [m|]; cbn [bind] in E; [|discriminate].
  destruct (getattr q "docLens"%string) as [n|]; cbn [bind] in E; [|discriminate].
  destruct (negb covA && _); [discriminate|]. destruct setup as [[]|]; cbn [bind] in E; [|discriminate].
  destruct iterations as [|iterations]; [cbn [uv_loop bind] in E; discriminate|].
  destruct (loop_fails P Q solve rest 0 (S iterations) ltac:(lia)) as [e He]. rewrite He in E. discriminate.
Qed.
(** The exceptions, if the linear algebra succeeds. *)
Theorem C182_exceptions {A V} P Q (solve : nat -> res (list A)) rest features covA iterations expMeans (m n : V) :
  0 < P -> (exists s, solve 0 = Ok s) ->
  exists q, uv_new_query m n = Ok q /\
  uv_train P Q (Ok tt) solve rest features covA iterations expMeans q = Raise (if negb covA && (features <? 363) then ValueError else TypeError).
Proof.
  intros HP [s Hs]. eexists. split; [reflexivity|]. unfold uv_train. cbn [combine query_fields getattr bind].
  change (String.eqb "means" "means") with true. change (String.eqb "means" "docLens") with false. change (String.eqb "docLens" "docLens") with true. cbn [bind].
  replace (negb (Nat.min features 363 =? 363)) with (features <? 363).
  2:{ destruct (Nat.ltb_spec features 363), (Nat.eqb_spec (Nat.min features 363) 363); try reflexivity; lia. }
  destruct (negb covA && (features <? 363)); [reflexivity|]. destruct iterations as [|iterations]; [reflexivity|].
  cbn [uv_loop]. rewrite Hs. cbn [bind]. rewrite unvec_fails. destruct (Nat.eqb_spec P 0); [lia|reflexivity].
Qed.
Theorem C182_training_refuted : exists P Q (solve : nat -> res (list nat)) rest features covA iterations (expMeans : nat -> nat) m n q,
  0 < P /\ 0 < Q /\ 0 < iterations /\ (forall i, exists s, solve i = Ok s /\ List.length s = Q * P) /\ (forall i, rest i = Ok tt) /\
  uv_new_query m n = Ok q /\ uv_train P Q (Ok tt) solve rest features covA iterations expMeans q = Raise TypeError.
Proof.
  exists 2, 3, (fun _ => Ok (repeat 1 6)), (fun _ => Ok tt), 400, false, 10, (fun x => x), 1, 2.
  destruct (C182_exceptions 2 3 (fun _ => Ok (repeat 1 6)) (fun _ => Ok tt) 400 false 10 (fun x => x) 1 2 ltac:(lia) ltac:(eexists; reflexivity)) as [q [E H]].
  exists q. do 3 (split; [lia|]). split; [intros i; eexists; split; reflexivity|]. split; [reflexivity|]. split; [exact E|exact H].
Qed.

(** ** C183: queries and the topics of documents *)
Theorem C183_queries_fail {V} (m n : V) run soft : exists q, uv_new_query m n = Ok q /\
  uv_query q run = Raise AttributeError /\ uv_topic_dists q soft = Raise AttributeError.
Proof. eexists. split; [reflexivity|]. split; reflexivity. Qed.
Theorem C183_queries_refuted : exists (m n : nat) (run : nat -> nat -> nat -> res (tuple nat)) q,
  (forall a b c, exists r, run a b c = Ok r) /\ uv_new_query m n = Ok q /\ uv_query q run = Raise AttributeError.
Proof.
  exists 0, 0, (fun _ _ _ => Ok []). destruct (C183_queries_fail 0 0 (fun _ _ _ => Ok []) (fun a _ => a)) as [q [E [H _]]].
  exists q. split; [intros; eexists; reflexivity|]. split; assumption.
Qed.

(** ** C184: matrices as vectors *)
Theorem C184_vec {A} rows cols (m : nat -> nat -> A) i j d : i < rows -> j < cols ->
  List.length (vec rows cols m) = rows * cols /\ nth (i + rows * j) (vec rows cols m) d = m i j.
Proof.
  intros Hi. unfold vec.
  assert (L : forall k s, List.length (flat_map (fun j => map (fun i => m i j) (seq 0 rows)) (seq s k)) = rows * k).
  { induction k as [|k IH]; intros s; [cbn; lia|]. cbn [seq flat_map]. rewrite app_length, map_length, seq_length, IH. lia. }
  assert (N : forall k s j, j < k -> nth (i + rows * j) (flat_map (fun j => map (fun i => m i j) (seq 0 rows)) (seq s k)) d = m i (s + j)).
  { induction k as [|k IH]; intros s j' Hj; [lia|]. cbn [seq flat_map]. destruct j' as [|j'].
    - rewrite Nat.mul_0_r, !Nat.add_0_r, app_nth1 by (rewrite map_length, seq_length; exact Hi).
      rewrite (nth_indep _ d (m 0 s)) by (rewrite map_length, seq_length; exact Hi). rewrite (map_nth (fun i => m i s)), seq_nth by exact Hi. reflexivity.
    - rewrite app_nth2 by (rewrite map_length, seq_length; nia). rewrite map_length, seq_length.
      replace (i + rows * S j' - rows) with (i + rows * j') by nia. rewrite IH by lia. f_equal. lia. }
  intros Hj. split; [apply L|]. apply (N cols 0 j Hj).
Qed.
Theorem C184_unvec_fails : forall A rows cols (m : nat -> nat -> A), 0 < rows ->
  unvec (vec rows cols m) rows = Raise TypeError.
Proof. intros A rows cols m H. rewrite unvec_fails. destruct (Nat.eqb_spec rows 0); [lia|reflexivity]. Qed.
Theorem C184_unvec_refuted : exists rows cols (m : nat -> nat -> nat), 0 < rows /\ 0 < cols /\
  unvec (vec rows cols m) rows = Raise TypeError.
Proof. exists 2, 3, (fun i j => 10 * i + j). do 2 (split; [lia|]). apply C184_unvec_fails. lia. Qed.

(** ** Examples *)
Example C182_example : exists q, uv_new_query 1 2 = Ok q /\
  uv_train 2 3 (Ok tt) (fun _ => Ok (repeat 1 6)) (fun _ => Ok tt) 20 false 10 (fun x => x) q = Raise ValueError.
Proof.
  destruct (C182_exceptions 2 3 (fun _ => Ok (repeat 1 6)) (fun _ => Ok tt) 20 false 10 (fun x => x) 1 2 ltac:(lia) ltac:(eexists; reflexivity)) as [q [E H]].
  exists q. split; [exact E|exact H].
Qed.
Example C182_never_example : forall o, uv_train 2 3 (Ok tt) (fun _ => Ok (repeat 1 6)) (fun _ => Ok tt) 400 true 0 (fun x => x) [("means", 1); ("docLens", 2)]%string <> Ok o.
Proof. intros o. apply C182_training_never_returns. Qed.
Example C183_example : uv_query [("means", 1); ("docLens", 2)]%string (fun _ _ _ => Ok []) = Raise AttributeError.
Proof. destruct (C183_queries_fail 1 2 (fun _ _ _ => Ok []) (fun a _ => a)) as [q [E [H _]]]. inversion E; subst. exact H. Qed.
Example C184_example : nth (1 + 2 * 2) (vec 2 3 (fun i j => 10 * i + j)) 0 = 12.
Proof. apply (C184_vec 2 3); lia. Qed.
Example C184_unvec_example : unvec (vec 2 3 (fun i j => 10 * i + j)) 2 = Raise TypeError.
Proof. apply C184_unvec_fails. lia. Qed.

Print Assumptions C182_training_never_returns.
Print Assumptions C182_exceptions.
Print Assumptions C182_training_refuted.
Print Assumptions C183_queries_fail.
Print Assumptions C183_queries_refuted.
Print Assumptions C184_vec.
Print Assumptions C184_unvec_fails.
Print Assumptions C184_unvec_refuted.
