(** * C01-C03: cross-validation folds (common.py 380-403). *)
From Coq Require Import List ZArith Lia Permutation.
From Verif Require Import Base SplitModel SplitProofs.
Import ListNotations.
Open Scope Z_scope.

(** C01.  For every corpus size, fold count and accepted fold id (negative ids
    included) the call succeeds, and train and query together are a permutation
    of all document ids; the query half has ceil(D/n) documents. *)
Theorem C01_fold_partitions_corpus : forall D f n : Z,
  1 <= D -> 1 < n -> f < n ->
  exists train query,
    cross_valid_split_indices D f n = Ok (train, query) /\
    Permutation (train ++ query) (zrange 0 D) /\
    (Z.of_nat (length query) - 1) * n < D <= Z.of_nat (length query) * n.
Proof.
  intros D f n HD Hn Hf. destruct (split_total D f n Hf Hn) as (tr & qu & E).
  exists tr, qu. split; [exact E|]. split; [exact (split_partition D f n tr qu HD E)|].
  destruct (split_query_length D f n tr qu HD E) as [-> _].
  pose proof (ceil_div_spec D n ltac:(lia)). nia.
Qed.

(** The two assertions are the only way to fail. *)
Theorem C01_fold_rejects_bad_ids : forall D f n : Z,
  ~ (f < n /\ 1 < n) -> cross_valid_split_indices D f n = Raise AssertionError.
Proof.
  intros D f n H. unfold cross_valid_split_indices, assert_.
  destruct (Z.ltb_spec f n); simpl; [|reflexivity].
  destruct (Z.ltb_spec 1 n); simpl; [|reflexivity]. tauto.
Qed.

Example C01_case :
  cross_valid_split_indices 7 2 3 = Ok ([2; 3; 4; 5], [6; 0; 1]).
Proof. reflexivity. Qed.

Example C01_case_negative_id :
  cross_valid_split_indices 7 (-1) 3 = Ok ([0; 1; 2; 3], [4; 5; 6]).
Proof. reflexivity. Qed.

(** C02.  Every document is queried by some fold. *)
Theorem C02_every_document_queried : forall D n d : Z,
  1 <= D -> 1 < n -> 0 <= d < D ->
  exists f train query, 0 <= f < n /\
    cross_valid_split_indices D f n = Ok (train, query) /\ In d query.
Proof. exact query_cover. Qed.

(** ... by exactly one if the fold count divides the corpus size ... *)
Theorem C02_exactly_once_when_dividing : forall D n d : Z,
  1 <= D -> 1 < n -> (n | D) -> 0 <= d < D ->
  exists! f, 0 <= f < n /\ queried_by D n f d.
Proof.
  intros D n d HD Hn Hdiv Hd.
  destruct (query_cover D n d HD Hn Hd) as (f & tr & qu & Hf & E & I).
  exists f. split; [split; [exact Hf | exists tr, qu; auto]|].
  intros g (Hg & tr' & qu' & E' & I').
  eapply query_unique; eauto; lia.
Qed.

(** ... and by at most two if there are no more folds than documents. *)
Theorem C02_at_most_twice : forall D n d (fs : list Z),
  1 <= D -> n <= D -> 0 <= d < D -> NoDup fs ->
  Forall (fun f => 0 <= f /\ queried_by D n f d) fs -> (length fs <= 2)%nat.
Proof. exact queried_at_most_two. Qed.

Example C02_case : queried_by 5 4 0 0 /\ queried_by 5 4 2 0.
Proof.
  split; [exists [2;3;4], [0;1] | exists [1;2;3], [4;0]]; split; try reflexivity; simpl; auto.
Qed.

Example C02_case_dividing : (3 | 12) /\ queried_by 12 3 1 6.
Proof.
  split; [exists 4; reflexivity|].
  eexists _, _; split; [reflexivity|]. simpl; auto.
Qed.

(** C03.  "No document is evaluated by two different folds" is false ... *)
Theorem C03_query_sets_disjoint_refuted : exists D n d f1 f2,
  1 <= D /\ 1 < n /\ n <= D /\ 0 <= f1 < n /\ 0 <= f2 < n /\ f1 <> f2 /\
  queried_by D n f1 d /\ queried_by D n f2 d.
Proof.
  exists 5, 4, 0, 0, 2. destruct C02_case. repeat split; try lia; assumption.
Qed.

(** ... and holds exactly when the fold count divides the corpus size. *)
Theorem C03_query_sets_disjoint_iff_dividing : forall D n : Z,
  1 <= D -> 1 < n ->
  ((forall d f1 f2, 0 <= d < D -> 0 <= f1 < n -> 0 <= f2 < n ->
      queried_by D n f1 d -> queried_by D n f2 d -> f1 = f2) <-> (n | D)).
Proof. exact query_disjoint_iff. Qed.

Print Assumptions C01_fold_partitions_corpus.
Print Assumptions C01_fold_rejects_bad_ids.
Print Assumptions C02_every_document_queried.
Print Assumptions C02_exactly_once_when_dividing.
Print Assumptions C02_at_most_twice.
Print Assumptions C03_query_sets_disjoint_refuted.
Print Assumptions C03_query_sets_disjoint_iff_dividing.

(** C60.  The perplexity script and the DataSet class do not query the same
    documents for the same fold ... *)
Theorem C60_fold_conventions_agree_refuted : exists D f n train query d,
  1 <= D /\ 1 < n /\ 0 <= f < n /\
  cross_valid_split_indices D f n = Ok (train, query) /\
  In d query /\ ~ In d (snd (script_split_indices D f n)).
Proof.
  exists 10, 0, 5, [2;3;4;5;6;7;8;9], [0;1], 0.
  repeat split; try lia; simpl; auto. vm_compute. intuition discriminate.
Qed.

(** ... the script's fold [f] is the class's fold [f-1] (fold id -1 for f = 0). *)
Theorem C60_script_query_is_previous_fold : forall D f n : Z,
  1 <= D -> 1 < n -> f <= n ->
  exists train,
    cross_valid_split_indices D (f - 1) n = Ok (train, snd (script_split_indices D f n)).
Proof. exact script_query_is_previous_fold. Qed.

Print Assumptions C60_fold_conventions_agree_refuted.
Print Assumptions C60_script_query_is_previous_fold.
