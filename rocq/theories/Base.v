(** * Base: results with Python exceptions, and list helpers shared by all
    model files.  Nothing in this file models code of /repo by itself. *)
From Coq Require Import List ZArith Lia Bool Arith Permutation.
From Coq Require Export ZifyBool ZifyNat.
Import ListNotations.

(** Python exception classes that the modelled code can raise.
    [MemoryOOB] stands for an out-of-bounds access in Cython code that is
    compiled with boundscheck(False): undefined behaviour, not an exception. *)
Inductive exn :=
| AssertionError | TypeError | ValueError | IndexError | KeyError
| ZeroDivisionError | UnboundLocalError | AttributeError | NameError
| MemoryOOB | LinAlgError | OtherError.

Inductive res (A : Type) : Type :=
| Ok (a : A)
| Raise (e : exn).
Arguments Ok {A} a.
Arguments Raise {A} e.

Definition bind {A B} (m : res A) (k : A -> res B) : res B :=
  match m with
  | Ok a => k a
  | Raise e => Raise e
  end.

Declare Scope res_scope.
Delimit Scope res_scope with res.
Notation "'do' x <- m ; k" := (bind m (fun x => k))
  (at level 200, x pattern, m at level 100, k at level 200, right associativity) : res_scope.
Open Scope res_scope.

(** Python [assert c]. *)
Definition assert_ (c : bool) : res unit := if c then Ok tt else Raise AssertionError.

Definition is_ok {A} (m : res A) : bool := match m with Ok _ => true | Raise _ => false end.

(** [mapM f l]: evaluate [f] on each element, left to right; first exception wins. *)
Fixpoint mapM {A B} (f : A -> res B) (l : list A) : res (list B) :=
  match l with
  | [] => Ok []
  | a :: r => do b <- f a; do bs <- mapM f r; Ok (b :: bs)
  end.

(** [l[i]] on a numpy array or a list, for non-negative [i]. *)
Definition get_ {A} (l : list A) (i : nat) : res A :=
  match nth_error l i with Some a => Ok a | None => Raise IndexError end.

(** [l[idx]] with an integer index vector (numpy fancy indexing of rows). *)
Definition select {A} (idx : list nat) (l : list A) : res (list A) :=
  mapM (get_ l) idx.

(** Python's [range(a,b)] over Z. *)
Definition zrange (a b : Z) : list Z :=
  map (fun i => (a + Z.of_nat i)%Z) (seq 0 (Z.to_nat (b - a))).

Fixpoint sumZ (l : list Z) : Z := match l with [] => 0%Z | a :: r => (a + sumZ r)%Z end.
Fixpoint sumN (l : list nat) : nat := match l with [] => 0 | a :: r => a + sumN r end.

(** Positions in [l] at which [p] holds, as [np.where(...)[0]] does. *)
Fixpoint where_from {A} (p : A -> bool) (i : nat) (l : list A) : list nat :=
  match l with
  | [] => []
  | a :: r => if p a then i :: where_from p (S i) r else where_from p (S i) r
  end.
Definition where_ {A} (p : A -> bool) (l : list A) : list nat := where_from p 0 l.

(** ** Lemmas *)

Lemma bind_ok {A B} (m : res A) (k : A -> res B) b :
  bind m k = Ok b <-> exists a, m = Ok a /\ k a = Ok b.
Proof.
  destruct m; simpl; split.
  - eauto.
  - intros (a0 & [= ->] & H); exact H.
  - discriminate.
  - intros (a0 & [=] & _).
Qed.

Lemma mapM_ok_Forall2 {A B} (f : A -> res B) l r :
  mapM f l = Ok r <-> Forall2 (fun a b => f a = Ok b) l r.
Proof.
  revert r; induction l as [|a l IH]; intros r; simpl.
  - split; [intros [= <-]; constructor | inversion 1; reflexivity].
  - split.
    + intros H. apply bind_ok in H as (b & Hb & H).
      apply bind_ok in H as (bs & Hbs & H). injection H as <-.
      constructor; [assumption | apply IH; assumption].
    + inversion 1 as [|? b ? bs Hb Hbs]; subst. rewrite Hb. simpl.
      apply IH in Hbs. rewrite Hbs. reflexivity.
Qed.

Lemma Forall2_len {A B} (R : A -> B -> Prop) l r : Forall2 R l r -> length l = length r.
Proof. induction 1; simpl; congruence. Qed.

Lemma mapM_length {A B} (f : A -> res B) l r : mapM f l = Ok r -> length r = length l.
Proof. intros H. apply mapM_ok_Forall2 in H. symmetry. eapply Forall2_len; eauto. Qed.

Lemma Forall2_nth_error_l {A B} (R : A -> B -> Prop) l r i a :
  Forall2 R l r -> nth_error l i = Some a -> exists b, nth_error r i = Some b /\ R a b.
Proof.
  intros H; revert i; induction H; intros [|i] E; simpl in *; try discriminate.
  - injection E as <-. eauto.
  - eauto.
Qed.

Lemma Forall2_nth_error_r {A B} (R : A -> B -> Prop) l r i b :
  Forall2 R l r -> nth_error r i = Some b -> exists a, nth_error l i = Some a /\ R a b.
Proof.
  intros H; revert i; induction H; intros [|i] E; simpl in *; try discriminate.
  - injection E as <-. eauto.
  - eauto.
Qed.

Lemma get_ok {A} (l : list A) i a : get_ l i = Ok a <-> nth_error l i = Some a.
Proof. unfold get_. destruct (nth_error l i); split; congruence. Qed.

Lemma select_length {A} idx (l r : list A) : select idx l = Ok r -> length r = length idx.
Proof. apply mapM_length. Qed.

Lemma select_nth {A} idx (l r : list A) i :
  select idx l = Ok r ->
  nth_error r i = match nth_error idx i with
                  | Some j => nth_error l j
                  | None => None
                  end.
Proof.
  intros H. pose proof (mapM_length _ _ _ H) as HL.
  apply mapM_ok_Forall2 in H.
  destruct (nth_error idx i) as [j|] eqn:E.
  - destruct (Forall2_nth_error_l _ _ _ _ _ H E) as (b & Hb & Hj).
    apply get_ok in Hj. congruence.
  - apply nth_error_None in E. apply nth_error_None. lia.
Qed.

Lemma select_total {A} idx (l : list A) :
  Forall (fun j => j < length l) idx -> exists r, select idx l = Ok r.
Proof.
  intros H; induction H as [|j idx Hj _ (r & IH)].
  - exists []. reflexivity.
  - destruct (nth_error l j) as [a|] eqn:E.
    + exists (a :: r). unfold select in *. simpl. unfold get_ at 1. rewrite E. simpl.
      rewrite IH. reflexivity.
    + apply nth_error_None in E. lia.
Qed.

Lemma select_ok_bound {A} idx (l r : list A) :
  select idx l = Ok r -> Forall (fun j => j < length l) idx.
Proof.
  intros H. apply mapM_ok_Forall2 in H.
  induction H as [|j a idx r Hj _ IH]; constructor; auto.
  apply get_ok in Hj. apply nth_error_Some. congruence.
Qed.

Lemma nth_error_ext {A} (l r : list A) :
  (forall i, nth_error l i = nth_error r i) -> l = r.
Proof.
  revert r; induction l as [|a l IH]; intros [|b r] H; auto.
  - specialize (H 0); discriminate.
  - specialize (H 0); discriminate.
  - pose proof (H 0) as H0. simpl in H0. injection H0 as ->.
    f_equal. apply IH. intros i. exact (H (S i)).
Qed.

Lemma zrange_length a b : length (zrange a b) = Z.to_nat (b - a).
Proof. unfold zrange. rewrite map_length, seq_length. reflexivity. Qed.

Lemma in_zrange a b x : In x (zrange a b) <-> (a <= x < b)%Z.
Proof.
  unfold zrange. rewrite in_map_iff. split.
  - intros (i & <- & Hi). apply in_seq in Hi. lia.
  - intros H. exists (Z.to_nat (x - a)). split; [lia | apply in_seq; lia].
Qed.

Lemma zrange_NoDup a b : NoDup (zrange a b).
Proof.
  unfold zrange. apply FinFun.Injective_map_NoDup; [intros i j; lia | apply seq_NoDup].
Qed.

Lemma zrange_app a b c : (a <= b <= c)%Z -> zrange a b ++ zrange b c = zrange a c.
Proof.
  intros H. unfold zrange.
  replace (Z.to_nat (c - a)) with (Z.to_nat (b - a) + Z.to_nat (c - b)) by lia.
  rewrite seq_app, map_app. f_equal.
  replace (0 + Z.to_nat (b - a)) with (Z.to_nat (b - a) + 0) by lia.
  generalize (Z.to_nat (c - b)) as n. intros n.
  assert (G : forall n k, map (fun i => (b + Z.of_nat i)%Z) (seq k n)
     = map (fun i => (a + Z.of_nat i)%Z) (seq (Z.to_nat (b - a) + k) n)).
  { clear n. induction n as [|n IH]; intros k; simpl; [reflexivity|].
    f_equal; [lia|]. rewrite IH. f_equal. f_equal. lia. }
  apply G.
Qed.

Lemma where_from_In {A} (p : A -> bool) l k i :
  In i (where_from p k l) <-> exists a, k <= i /\ nth_error l (i - k) = Some a /\ p a = true.
Proof.
  revert k; induction l as [|a l IH]; intros k; simpl.
  - split; [tauto|]. intros (a & _ & H & _). destruct (i - k); discriminate.
  - assert (Hiff : In i (where_from p (S k) l) <->
        exists a0, S k <= i /\ nth_error (a :: l) (i - k) = Some a0 /\ p a0 = true).
    { rewrite IH. split; intros (b & Hb & Hn & Hp); exists b; (split; [lia|]); split; auto.
      - replace (i - k) with (S (i - S k)) by lia. exact Hn.
      - replace (i - k) with (S (i - S k)) in Hn by lia. exact Hn. }
    destruct (p a) eqn:Ea; simpl; rewrite Hiff.
    + split.
      * intros [<- | (b & ? & ? & ?)].
        -- exists a. rewrite Nat.sub_diag. auto.
        -- exists b. repeat split; auto; lia.
      * intros (b & Hk & Hn & Hp). destruct (Nat.eq_dec k i) as [->|]; [left; reflexivity|].
        right. exists b. repeat split; auto; lia.
    + split.
      * intros (b & ? & ? & ?). exists b. repeat split; auto; lia.
      * intros (b & Hk & Hn & Hp). destruct (Nat.eq_dec k i) as [->|].
        -- rewrite Nat.sub_diag in Hn. simpl in Hn. congruence.
        -- exists b. repeat split; auto; lia.
Qed.

Lemma where_In {A} (p : A -> bool) l i :
  In i (where_ p l) <-> exists a, nth_error l i = Some a /\ p a = true.
Proof.
  unfold where_. rewrite where_from_In.
  split; intros (a & H); exists a; rewrite Nat.sub_0_r in *; intuition lia.
Qed.

Lemma where_from_NoDup {A} (p : A -> bool) l k : NoDup (where_from p k l).
Proof.
  revert k; induction l as [|a l IH]; intros k; simpl; [constructor|].
  destruct (p a); auto. constructor; auto.
  rewrite where_from_In. intros (? & ? & _). lia.
Qed.

Lemma where_NoDup {A} (p : A -> bool) l : NoDup (where_ p l).
Proof. apply where_from_NoDup. Qed.

Lemma where_from_length {A} (p : A -> bool) l k :
  length (where_from p k l) = length (filter p l).
Proof. revert k; induction l as [|a l IH]; intros k; simpl; auto. destruct (p a); simpl; auto. Qed.

Lemma where_length {A} (p : A -> bool) l : length (where_ p l) = length (filter p l).
Proof. apply where_from_length. Qed.

Lemma filter_len_le {A} (p : A -> bool) l : length (filter p l) <= length l.
Proof. induction l as [|a l IH]; simpl; [lia|]. destruct (p a); simpl; lia. Qed.

Lemma filter_length_eq {A} (p : A -> bool) l :
  length (filter p l) = length l -> Forall (fun a => p a = true) l.
Proof.
  induction l as [|a l IH]; simpl; intros H; constructor;
    destruct (p a) eqn:E; simpl in *; auto.
  - exfalso. pose proof (filter_len_le p l). lia.
  - apply IH. pose proof (filter_len_le p l). lia.
Qed.

Lemma sumZ_app l r : sumZ (l ++ r) = (sumZ l + sumZ r)%Z.
Proof. induction l; simpl; lia. Qed.

Lemma sumN_app l r : sumN (l ++ r) = sumN l + sumN r.
Proof. induction l; simpl; lia. Qed.

Lemma sumZ_perm l r : Permutation l r -> sumZ l = sumZ r.
Proof. induction 1; simpl; lia. Qed.
