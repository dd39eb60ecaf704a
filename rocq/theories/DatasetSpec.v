(** * What it means for a dataset to hold (complete) records of the documents
    of another one.  Independent of how the operations are written. *)
From Coq Require Import List ZArith QArith Arith Bool Sorted.
From Verif Require Import Base SparseModel SplitModel DatasetModel.
Import ListNotations.
Open Scope nat_scope.

(** [new] has one row per element of [sel], the i-th being related to row
    [sel[i]] of [orig]. *)
Definition rows_from {A B} (R : A -> B -> Prop) (sel : list nat)
           (orig : list A) (new : list B) : Prop :=
  Forall2 (fun s b => exists a, nth_error orig s = Some a /\ R a b) sel new.

(** The dense values of [r] are those of [r0] at the columns [keep]. *)
Definition same_at (keep : list nat) (r0 r : srow) : Prop :=
  forall j c, nth_error keep j = Some c -> sget r j = sget r0 c.

(** [r] is [r0], with [k] ones appended. *)
Definition with_ones (k : nat) (r0 r : list Q) : Prop := r = r0 ++ repeat 1%Q k.

(** Every row of [ds] is the record of one document of [ds0]: words (restricted
    to columns [keep], which stay in increasing order and keep their dictionary
    entry), features and category all from document [sel[i]]. *)
Record coherent (ds0 : dataset) (sel keep : list nat) (k : nat) (ds : dataset) : Prop := {
  co_words : rows_from (same_at keep) sel (srows (words ds0)) (srows (words ds));
  co_wcols : scols (words ds) = length keep;
  co_keep : StronglySorted lt keep /\ Forall (fun c => c < scols (words ds0)) keep;
  co_dict : match dict ds0, dict ds with
            | NoDict, NoDict => True
            | DictList l0, DictList l | DictArr l0, DictArr l =>
              forall j c, nth_error keep j = Some c -> nth_error l j = nth_error l0 c
            | _, _ => False
            end;
  co_feats : match feats ds0, feats ds with
             | None, None => True
             | Some f0, Some f => rows_from (with_ones k) sel (frows f0) (frows f)
             | _, _ => False
             end;
  co_cats : match cats ds0, cats ds with
            | NoCats, NoCats => True
            | PyList l0, PyList l => rows_from eq sel l0 l
            | NpArr l0, NpArr l => rows_from eq sel l0 l
            | _, _ => False
            end;
  co_links : match links ds0, links ds with
             | None, None => True
             | Some _, Some l => nrows l = length sel
             | _, _ => False
             end
}.

(** The links of [ds] are those of [ds0], restricted to rows [sel] and
    columns [cols]. *)
Definition links_from (ds0 : dataset) (sel cols : list nat) (ds : dataset) : Prop :=
  match links ds0, links ds with
  | None, None => True
  | Some l0, Some l => rows_from (same_at cols) sel (srows l0) (srows l) /\ scols l = length cols
  | _, _ => False
  end.

(** Public operations on a dataset.  [OpTrain]/[OpQuery] take one half of a
    cross-validation split, [OpPrune] is prune_and_shuffle with an arbitrary
    shuffle. *)
Inductive op :=
| OpReorder (o : list nat)
| OpPrune (shuffle : list nat -> list nat) (min_unique min_link : Q)
| OpTrain (fold folds : Z)
| OpQuery (fold folds : Z)
| OpCopy
| OpMinFreq (n : nat)
| OpIntercept
| OpUndirected
| OpBinary.

Definition lift_state {A} (p : dataset * res A) : res dataset :=
  match p with (ds, Ok _) => Ok ds | (_, Raise e) => Raise e end.

Definition step (ds : dataset) (o : op) : res dataset :=
  match o with
  | OpReorder o => lift_state (reorder ds o)
  | OpPrune sh mu ml => lift_state (prune_and_shuffle sh mu ml ds)
  | OpTrain f n => do (tr, _) <- cross_valid_split ds f n; Ok tr
  | OpQuery f n => do (_, qu) <- cross_valid_split ds f n; Ok qu
  | OpCopy => copy ds false
  | OpMinFreq n => words_with_min_freq ds n
  | OpIntercept => lift_state (add_intercept ds)
  | OpUndirected => lift_state (convert_to_undirected ds)
  | OpBinary => lift_state (convert_to_binary ds)
  end.

Fixpoint run (ds : dataset) (ops : list op) : res dataset :=
  match ops with
  | [] => Ok ds
  | o :: r => do ds' <- step ds o; run ds' r
  end.

(** Operations that leave the link weights as they are. *)
Definition keeps_weights (o : op) : Prop :=
  match o with OpUndirected | OpBinary => False | _ => True end.

(** ** Cross-validation halves: every component is taken at the same rows. *)
Definition complete_rows (idx : list nat) (ds ds' : dataset) : Prop :=
  rows_from eq idx (srows (words ds)) (srows (words ds')) /\
  scols (words ds') = scols (words ds) /\
  (match feats ds, feats ds' with
   | None, None => True
   | Some f, Some f' => rows_from eq idx (frows f) (frows f')
   | _, _ => False
   end) /\
  (match links ds, links ds' with
   | None, None => True
   | Some l, Some l' => rows_from eq idx (srows l) (srows l') /\ scols l' = scols l
   | _, _ => False
   end) /\
  (match cats ds, cats ds' with
   | NoCats, NoCats => True
   | NpArr l, NpArr l' => rows_from eq idx l l'
   | _, _ => False
   end) /\
  rows_from eq idx (order ds) (order ds') /\
  dict ds' = dict ds.

(** ** Pruning *)

(** Distinct words of document [d]. *)
Definition unique_words (w : smat) (d : nat) : nat :=
  length (filter (fun c => negb (mget w d c =? 0)%Z) (seq 0 (scols w))).

Definition enough_words (ds : dataset) (mu : Q) (d : nat) : Prop :=
  d < doc_count ds /\ (mu <= inject_Z (Z.of_nat (unique_words (words ds) d)))%Q.

(** Weight of the links from [d] to documents of [T]. *)
Definition links_within (m : smat) (d : nat) (T : list nat) : Z := sumZ (map (mget m d) T).

(** A set of documents, all with enough words and with enough links to
    documents of that very set. *)
Definition self_supporting (ds : dataset) (mu ml : Q) (T : list nat) : Prop :=
  NoDup T /\
  forall d, In d T ->
    enough_words ds mu d /\
    match links ds with
    | None => True
    | Some m => (ml <= inject_Z (links_within m d T))%Q
    end.

(** A dataset as loaded from canonical matrices, with square link matrix. *)
Definition prunable (ds : dataset) : Prop :=
  Forall (fun r => NoDup (map fst r)) (srows (words ds)) /\ swf (words ds) /\
  (match feats ds with None => True | Some f => length (frows f) = doc_count ds end) /\
  (match links ds with
   | None => True
   | Some m => nrows m = doc_count ds /\ scols m = doc_count ds /\ swf m /\
               Forall (Forall (fun e => (0 <= snd e)%Z)) (srows m)
   end) /\
  (exists l, cats ds = NpArr l /\ length l = doc_count ds).

(** [ds'] consists of the documents [o] of [ds]; square links are restricted in
    both dimensions. *)
Definition restricted (o : list nat) (ds ds' : dataset) : Prop :=
  rows_from eq o (srows (words ds)) (srows (words ds')) /\
  scols (words ds') = scols (words ds) /\
  (match feats ds, feats ds' with
   | None, None => True
   | Some f, Some f' => rows_from eq o (frows f) (frows f')
   | _, _ => False
   end) /\
  (match links ds, links ds' with
   | None, None => True
   | Some l, Some l' => rows_from (same_at o) o (srows l) (srows l') /\ scols l' = length o
   | _, _ => False
   end) /\
  (match cats ds, cats ds' with
   | NpArr l, NpArr l' => rows_from eq o l l'
   | _, _ => False
   end) /\
  order ds' = o.
