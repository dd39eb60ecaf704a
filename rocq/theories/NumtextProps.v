(** * Tables of numbers in text files (C223, C224) *)
From Coq Require Import List Arith Bool ZArith QArith Qround Lia.
From Verif Require Import Base NumtextModel.
Import ListNotations.
Open Scope nat_scope.

(** The numbers of a file; and a file with as many on every line as on the first. *)
Definition numbers {W} (float_of : W -> option Q) (file : list (list W)) (X : list (list Q)) : Prop :=
  Forall2 (fun line row => map float_of line = map Some row) file X.
Definition rectangular {W} (file : list (list W)) : Prop :=
  forall line first rest, file = first :: rest -> In line file -> length line = length first.
(** A number that the type of the matrix can hold. *)
Definition holds (to_float32 : Q -> Q) (t : dtype) (x : Q) : Prop :=
  match t with
  | Int32 => exists z, x = inject_Z z /\ (- 2147483648 <= z <= 2147483647)%Z
  | Float32 => to_float32 x = x
  end.

Lemma floats_map {W} (float_of : W -> option Q) line : forall row, map float_of line = map Some row -> floats float_of line = Some row.
Proof.
  induction line as [|w line IH]; intros [|x row] E; try discriminate E; [reflexivity|]. cbn [map] in E. injection E as E1 E2. cbn [floats]. rewrite E1, (IH row E2). reflexivity.
Qed.
Lemma floats_inv {W} (float_of : W -> option Q) line : forall row, floats float_of line = Some row -> map float_of line = map Some row.
Proof.
  induction line as [|w line IH]; cbn [floats]; intros row E; [injection E as <-; reflexivity|]. destruct (float_of w) as [x|] eqn:Q; [|discriminate E].
  destruct (floats float_of line) as [l|]; [|discriminate E]. injection E as <-. cbn [map]. rewrite Q, (IH l eq_refl). reflexivity.
Qed.
Lemma set_nth_here {B} (l : list B) y r x : set_nth (l ++ y :: r) (length l) x = l ++ x :: r.
Proof. induction l as [|z l IH]; [reflexivity|]. cbn [app length set_nth]. rewrite IH. reflexivity. Qed.
Lemma set_nth_length {B} (l : list B) : forall i x, length (set_nth l i x) = length l.
Proof. induction l as [|y l IH]; intros [|i] x; cbn; auto. Qed.
Lemma nth_here {B} (l : list B) y r (d : B) : nth (length l) (l ++ y :: r) d = y.
Proof. induction l as [|z l IH]; [reflexivity|exact IH]. Qed.

Section proofs.
  Context {W : Type}.
  Variable float_of : W -> option Q.
  Variable has_point : W -> bool.
  Variables (to_float32 outside_int32 : Q -> Q).
  Local Notation stored := (stored to_float32 outside_int32).

  Lemma dense_ok t cols file : forall X done, numbers float_of file X -> (forall row, In row X -> length row = cols) ->
    dense_rows float_of to_float32 outside_int32 t cols (done ++ repeat (repeat None cols) (length file)) (length done) file =
    Ok (done ++ map (map (fun x => Some (stored t x))) X, length done + length file).
  Proof.
    induction file as [|line file IH]; intros X done V L; inversion V as [|? row ? X' E V']; subst; cbn [dense_rows length repeat map].
    - rewrite Nat.add_0_r. reflexivity.
    - rewrite (floats_map _ _ _ E). unfold set_row. rewrite app_length. cbn [length].
      replace (length done <? length done + S (length (repeat (repeat None cols) (length file)))) with true by (symmetry; apply Nat.ltb_lt; lia).
      rewrite (L row (or_introl eq_refl)), Nat.eqb_refl. cbn [bind]. rewrite set_nth_here.
      specialize (IH X' (done ++ [map (fun x => Some (stored t x)) row]) V' (fun r I => L r (or_intror I))). rewrite <- !app_assoc in IH. cbn [app] in IH.
      rewrite app_length in IH. cbn [length] in IH. replace (S (length done)) with (length done + 1) by lia. rewrite IH. f_equal. f_equal. lia.
  Qed.
  Lemma numbers_length file X : numbers float_of file X -> length file = length X.
  Proof. induction 1; cbn; congruence. Qed.
  Lemma rect_rows file X : numbers float_of file X -> rectangular file -> forall row, In row X -> length row = length (first_line file).
  Proof.
    intros V R row I. apply In_nth_error in I as (i & I).
    assert (G : exists line, In line file /\ map float_of line = map Some row).
    { clear R. revert i I. induction V as [|line r file X E V IH]; intros i I; [destruct i; discriminate I|]. destruct i as [|i]; cbn in I.
      - injection I as <-. exists line. split; [left; reflexivity|exact E].
      - destruct (IH i I) as (l & J & H). exists l. split; [right; exact J|exact H]. }
    destruct G as (line & J & E). apply (f_equal (@length _)) in E. rewrite !map_length in E. rewrite <- E. destruct file as [|first rest]; [contradiction|]. apply (R line first rest eq_refl J).
  Qed.
  (** Whatever is saved by the dense conversion has been read completely. *)
  Lemma dense_sound t cols file : forall done rest m n, length done + length rest = length (done ++ rest) ->
    (forall r, In r done -> exists v, r = map Some v /\ length v = cols) ->
    dense_rows float_of to_float32 outside_int32 t cols (done ++ rest) (length done) file = Ok (m, n) ->
    n = length done + length file /\ length m = length done + length rest /\ length file <= length rest /\
    (forall i r, nth_error m i = Some r -> i < n -> exists v, r = map Some v /\ length v = cols) /\
    (forall line, In line file -> length line = cols \/ length line = 1).
  Proof.
    induction file as [|line file IH]; intros done rest m n L D E; cbn [dense_rows] in E.
    - injection E as <- <-. rewrite app_length. cbn [length]. repeat split; try lia.
      + intros i r N LT. rewrite nth_error_app1 in N by lia. apply D. apply nth_error_In in N. exact N.
      + intros l [].
    - destruct (floats float_of line) as [vals|] eqn:FL; [|discriminate E]. unfold set_row in E. destruct (length done <? length (done ++ rest)) eqn:LT; [|discriminate E].
      apply Nat.ltb_lt in LT. destruct rest as [|b rest]; [rewrite app_nil_r in LT; lia|].
      assert (G : exists v, length v = cols /\ (length line = cols \/ length line = 1) /\
                dense_rows float_of to_float32 outside_int32 t cols ((done ++ [map Some v]) ++ rest) (length (done ++ [map Some v])) file = Ok (m, n)).
      { apply floats_inv in FL. apply (f_equal (@length _)) in FL. rewrite !map_length in FL.
        destruct (length vals =? cols) eqn:C.
        - apply Nat.eqb_eq in C. exists (map (stored t) vals). rewrite map_length. split; [exact C|]. split; [left; lia|]. cbn [bind] in E. rewrite set_nth_here in E. rewrite map_map. rewrite <- app_assoc, app_length. cbn [app length]. rewrite Nat.add_1_r. exact E.
        - destruct vals as [|x [|y vals]]; try discriminate E. exists (repeat (stored t x) cols). rewrite repeat_length. split; [reflexivity|]. split; [right; exact FL|].
          cbn [bind] in E. rewrite set_nth_here in E. replace (map Some (repeat (stored t x) cols)) with (repeat (Some (stored t x)) cols).
          + rewrite <- app_assoc, app_length. cbn [app length]. rewrite Nat.add_1_r. exact E.
          + clear. induction cols; cbn; congruence. }
      destruct G as (v & LV & LL & E'). apply IH in E' as (A1 & A2 & A3 & A4 & A5).
      + rewrite app_length in A1, A2. cbn [length] in *. repeat split; try lia; [exact A4|]. intros l [<-|I]; [exact LL|apply A5, I].
      + rewrite !app_length. reflexivity.
      + intros r I. apply in_app_iff in I as [I|[<-|[]]]; [apply D, I|]. exists v. auto.
  Qed.
  Lemma dense_too_long t cols file : forall X done k, numbers float_of file X -> (forall row, In row X -> length row = cols) -> k < length file ->
    dense_rows float_of to_float32 outside_int32 t cols (done ++ repeat (repeat None cols) k) (length done) file = Raise IndexError.
  Proof.
    induction file as [|line file IH]; intros X done k V L LT; [cbn in LT; lia|]. inversion V as [|? row ? X' E V']; subst; cbn [dense_rows].
    rewrite (floats_map _ _ _ E). unfold set_row. rewrite app_length, repeat_length. destruct k as [|k].
    - rewrite Nat.add_0_r, Nat.ltb_irrefl. reflexivity.
    - replace (length done <? length done + S k) with true by (symmetry; apply Nat.ltb_lt; lia). rewrite (L row (or_introl eq_refl)), Nat.eqb_refl. cbn [bind repeat]. rewrite set_nth_here.
      specialize (IH X' (done ++ [map (fun x => Some (stored t x)) row]) k V' (fun r I => L r (or_intror I)) ltac:(cbn in LT; lia)). rewrite <- !app_assoc in IH. cbn [app] in IH.
      rewrite app_length in IH. cbn [length] in IH. rewrite Nat.add_1_r in IH. exact IH.
  Qed.
  Definition cell (t : dtype) (x : Q) : Q := if Qle_bool x 0 then 0%Q else stored t x.
  Lemma sparse_row_ok t cols vals : forall pre rest old (tail : list (list Q)), length pre + length vals + length old = cols ->
    sparse_row to_float32 outside_int32 t (rest ++ (pre ++ repeat 0%Q (length vals) ++ old) :: tail) (length rest) (length pre) cols vals =
    Ok (rest ++ (pre ++ map (cell t) vals ++ old) :: tail).
  Proof.
    induction vals as [|x vals IH]; intros pre rest old tail L; [reflexivity|]. cbn [sparse_row length repeat map]. cbn [length] in L. unfold cell at 1. destruct (Qle_bool x 0).
    - specialize (IH (pre ++ [0%Q]) rest old tail). rewrite app_length in IH. cbn [length] in IH. rewrite <- !app_assoc in IH. cbn [app] in IH. rewrite Nat.add_1_r in IH. apply IH. lia.
    - rewrite app_length. cbn [length]. replace (length rest <? length rest + S (length tail)) with true by (symmetry; apply Nat.ltb_lt; lia).
      replace (length pre <? cols) with true by (symmetry; apply Nat.ltb_lt; lia). cbn [andb]. rewrite nth_here. cbn [app]. rewrite set_nth_here, set_nth_here.
      specialize (IH (pre ++ [stored t x]) rest old tail). rewrite app_length in IH. cbn [length] in IH. rewrite <- !app_assoc in IH. cbn [app] in IH. rewrite Nat.add_1_r in IH. apply IH. lia.
  Qed.
  Lemma sparse_ok t cols file : forall X done, numbers float_of file X -> (forall row, In row X -> length row = cols) ->
    sparse_rows float_of to_float32 outside_int32 t cols (done ++ repeat (repeat 0%Q cols) (length file)) (length done) file =
    Ok (done ++ map (map (cell t)) X, length done + length file).
  Proof.
    induction file as [|line file IH]; intros X done V L; inversion V as [|? row ? X' E V']; subst; cbn [sparse_rows length repeat map].
    - rewrite Nat.add_0_r. reflexivity.
    - rewrite (floats_map _ _ _ E). pose proof (L row (or_introl eq_refl)) as C.
      pose proof (sparse_row_ok t cols row [] done [] (repeat (repeat 0%Q cols) (length file)) ltac:(cbn; lia)) as S. cbn [app length] in S. rewrite !app_nil_r, C in S. rewrite S. cbn [bind].
      specialize (IH X' (done ++ [map (cell t) row]) V' (fun r I => L r (or_intror I))). rewrite <- !app_assoc in IH. cbn [app] in IH.
      rewrite app_length in IH. cbn [length] in IH. rewrite Nat.add_1_r in IH. rewrite IH. f_equal. f_equal. lia.
  Qed.
End proofs.

(** A table of numbers is saved as the matrix of its numbers, with the type that its
    first line has; numbers that this type can hold are unchanged. *)
Theorem C223_saved : forall (W : Type) (float_of : W -> option Q) has_point to_float32 outside_int32 file X,
  numbers float_of file X -> rectangular file ->
  exists m, save_as_numpy float_of has_point to_float32 outside_int32 file (length file) = Ok m /\
    length m = length file /\
    forall i j row x, nth_error X i = Some row -> nth_error row j = Some x ->
      exists r c, nth_error m i = Some r /\ length r = length (first_line file) /\ nth_error r j = Some (Some c) /\
        (holds to_float32 (dtype_of has_point (first_line file)) x -> c = x).
Proof.
  intros W float_of has_point to_float32 outside_int32 file X V R. unfold save_as_numpy.
  pose proof (dense_ok float_of to_float32 outside_int32 (dtype_of has_point (first_line file)) (length (first_line file)) file X [] V (rect_rows _ _ _ V R)) as D.
  cbn [app length plus] in D. rewrite D. cbn [bind]. rewrite Nat.eqb_refl. eexists. split; [reflexivity|]. rewrite map_length, (numbers_length _ _ _ V). split; [reflexivity|].
  intros i j row x I J. exists (map (fun x => Some (stored to_float32 outside_int32 (dtype_of has_point (first_line file)) x)) row).
  exists (stored to_float32 outside_int32 (dtype_of has_point (first_line file)) x). rewrite map_length. repeat split.
  - rewrite nth_error_map, I. reflexivity.
  - apply (rect_rows _ _ _ V R). apply nth_error_In in I. exact I.
  - rewrite nth_error_map, J. reflexivity.
  - unfold holds, stored. destruct (dtype_of has_point (first_line file)); [|auto]. intros (z & -> & B). unfold truncate.
    assert (T : (if Qle_bool 0 (inject_Z z) then Qfloor (inject_Z z) else Qceiling (inject_Z z)) = z) by (destruct (Qle_bool 0 (inject_Z z)); [apply Qfloor_Z|apply Qceiling_Z]).
    rewrite T. replace ((- 2147483648 <=? z) && (z <=? 2147483647))%Z with true by (symmetry; apply andb_true_iff; split; apply Z.leb_le; lia). reflexivity.
Qed.
(** A file that is saved has been read to the end: it has the number of lines that
    was said, and no cell is left as it was. *)
Theorem C223_read_to_the_end : forall (W : Type) (float_of : W -> option Q) has_point to_float32 outside_int32 file n m,
  save_as_numpy float_of has_point to_float32 outside_int32 file n = Ok m ->
  n = length file /\ length m = n /\ (forall r, In r m -> length r = length (first_line file) /\ ~ In None r) /\
  (forall line, In line file -> length line = length (first_line file) \/ length line = 1).
Proof.
  intros W float_of has_point to_float32 outside_int32 file n m E. unfold save_as_numpy in E.
  destruct (dense_rows _ _ _ _ _ _ _ file) as [(m0, row)|] eqn:D; [|discriminate E]. cbn [bind] in E. destruct (row =? n) eqn:RN; [|discriminate E]. apply Nat.eqb_eq in RN. injection E as <-.
  apply (dense_sound float_of to_float32 outside_int32 _ (length (first_line file)) file [] (repeat (repeat None (length (first_line file))) n)) in D as (A1 & A2 & A3 & A4 & A5).
  - rewrite repeat_length in *. cbn [length plus] in *. split; [lia|]. split; [lia|]. split; [|exact A5]. intros r I. apply In_nth_error in I as (i & I).
    assert (LT : i < length m0) by (apply nth_error_Some; congruence). destruct (A4 i r I ltac:(lia)) as (v & -> & L). rewrite map_length. split; [exact L|].
    intros J. apply in_map_iff in J as (x & J & _). discriminate J.
  - cbn. reflexivity.
  - intros r [].
Qed.
(** A first line of whole numbers: what follows the point in later lines is lost. *)
Definition idq (x : Q) : Q := x.
Theorem C223_later_points_refuted : exists (file : list (list Q)) m, rectangular file /\ numbers Some file file /\
  save_as_numpy Some (fun x => negb (Pos.eqb (Qden x) 1)) idq idq file (length file) = Ok m /\
  nth_error file 1 = Some [(3 # 2)%Q] /\ nth_error m 1 = Some [Some 1%Q].
Proof.
  exists [[2%Q]; [(3 # 2)%Q]]. eexists. split; [|split; [|split; [reflexivity|split; reflexivity]]].
  - intros line first rest E I. injection E as <- <-. cbn in I. destruct I as [<-|[<-|[]]]; reflexivity.
  - repeat constructor.
Qed.
(** A line with one number fills a whole row. *)
Theorem C223_single_number_refuted : exists (file : list (list Q)) m, numbers Some file file /\
  save_as_numpy Some (fun _ => true) idq idq file (length file) = Ok m /\
  nth_error file 1 = Some [7%Q] /\ nth_error m 1 = Some [Some 7%Q; Some 7%Q; Some 7%Q].
Proof. exists [[1%Q; 2%Q; 3%Q]; [7%Q]]. eexists. split; [repeat constructor|]. split; [reflexivity|]. split; reflexivity. Qed.
(** A file whose last line does not end: the count of wc -l is too small by one, and
    the conversion fails. *)
Theorem C223_unended_line_refuted : forall (W : Type) (float_of : W -> option Q) has_point to_float32 outside_int32 file X,
  numbers float_of file X -> rectangular file -> file <> [] ->
  save_as_numpy float_of has_point to_float32 outside_int32 file (wc_l file false) = Raise IndexError.
Proof.
  intros W float_of has_point to_float32 outside_int32 file X V R NE. unfold save_as_numpy, wc_l.
  pose proof (dense_too_long float_of to_float32 outside_int32 (dtype_of has_point (first_line file)) (length (first_line file)) file X [] (length file - 1) V (rect_rows _ _ _ V R)) as D.
  cbn [app length] in D. rewrite D; [reflexivity|]. destruct file; [contradiction NE; reflexivity|]. cbn. lia.
Qed.
Example C223_case : exists (file : list (list Q)), rectangular file /\ numbers Some file file /\
  (forall x, In x (concat file) -> holds idq (dtype_of (fun _ => false) (first_line file)) x) /\ file = [[1%Q; 0%Q]; [(-3)%Q; 4%Q]].
Proof.
  exists [[1%Q; 0%Q]; [(-3)%Q; 4%Q]]. split; [|split; [repeat constructor|split; [|reflexivity]]].
  - intros line first rest E I. injection E as <- <-. cbn in I. destruct I as [<-|[<-|[]]]; reflexivity.
  - intros x I. cbn in I. cbn [holds dtype_of first_line existsb]. destruct I as [<-|[<-|[<-|[<-|[]]]]]; eexists; (split; [reflexivity|cbn; lia]).
Qed.

(** ** C224 *)
(** The sparse conversion of a table without negative numbers gives the matrix of the
    dense one. *)
Theorem C224_agree : forall (W : Type) (float_of : W -> option Q) has_point to_float32 outside_int32 file X,
  numbers float_of file X -> rectangular file -> (forall row x, In row X -> In x row -> (0 <= x)%Q) ->
  (forall x, (x == 0)%Q -> to_float32 x = 0%Q) ->
  exists d s, save_as_numpy float_of has_point to_float32 outside_int32 file (length file) = Ok d /\
    save_as_numpy_sparse float_of has_point to_float32 outside_int32 file (length file) = Ok s /\
    d = map (map Some) s.
Proof.
  intros W float_of has_point to_float32 outside_int32 file X V R P Z. unfold save_as_numpy, save_as_numpy_sparse.
  set (t := dtype_of has_point (first_line file)).
  pose proof (dense_ok float_of to_float32 outside_int32 t (length (first_line file)) file X [] V (rect_rows _ _ _ V R)) as D.
  pose proof (sparse_ok float_of to_float32 outside_int32 t (length (first_line file)) file X [] V (rect_rows _ _ _ V R)) as S.
  cbn [app length plus] in D, S. rewrite D, S. cbn [bind]. rewrite Nat.eqb_refl. eexists. eexists. split; [reflexivity|]. split; [reflexivity|].
  rewrite map_map. apply map_ext_in. intros row I. rewrite map_map. apply map_ext_in. intros x J. f_equal. unfold cell. destruct (Qle_bool x 0) eqn:Q; [|reflexivity].
  apply Qle_bool_iff in Q. specialize (P row x I J). assert (E : (x == 0)%Q) by (apply Qle_antisym; assumption). unfold stored. destruct t; [|apply Z, E].
  assert (T : truncate x = 0%Z) by (unfold truncate; destruct (Qle_bool 0 x); [rewrite (Qfloor_comp x 0 E)|rewrite (Qceiling_comp x 0 E)]; reflexivity).
  cbv zeta. rewrite T. reflexivity.
Qed.
(** Negative numbers are left out. *)
Theorem C224_negative_refuted : forall (W : Type) (float_of : W -> option Q) has_point to_float32 outside_int32 file X i j row x,
  numbers float_of file X -> rectangular file -> nth_error X i = Some row -> nth_error row j = Some x -> (x < 0)%Q ->
  exists s r, save_as_numpy_sparse float_of has_point to_float32 outside_int32 file (length file) = Ok s /\
    nth_error s i = Some r /\ nth_error r j = Some 0%Q.
Proof.
  intros W float_of has_point to_float32 outside_int32 file X i j row x V R I J N. unfold save_as_numpy_sparse.
  pose proof (sparse_ok float_of to_float32 outside_int32 (dtype_of has_point (first_line file)) (length (first_line file)) file X [] V (rect_rows _ _ _ V R)) as S.
  cbn [app length plus] in S. rewrite S. cbn [bind]. rewrite Nat.eqb_refl. eexists. eexists. split; [reflexivity|]. split; [rewrite nth_error_map, I; reflexivity|].
  rewrite nth_error_map, J. cbn [option_map]. unfold cell. rewrite (proj2 (Qle_bool_iff x 0) (Qlt_le_weak _ _ N)). reflexivity.
Qed.
(** A line that is too short, or empty, is filled up with zeros. *)
Theorem C224_short_line_refuted : exists (file : list (list Q)), numbers Some file file /\ nth_error file 1 = Some [7%Q; 8%Q] /\ nth_error file 2 = Some [] /\
  save_as_numpy_sparse Some (fun _ => true) idq idq file 3 = Ok [[1%Q; 2%Q; 3%Q]; [7%Q; 8%Q; 0%Q]; [0%Q; 0%Q; 0%Q]] /\
  save_as_numpy Some (fun _ => true) idq idq file 3 = Raise ValueError.
Proof. exists [[1%Q; 2%Q; 3%Q]; [7%Q; 8%Q]; []]. repeat split. repeat constructor. Qed.
Example C224_case : exists (file : list (list Q)), rectangular file /\ numbers Some file file /\
  (forall row x, In row file -> In x row -> (0 <= x)%Q) /\
  save_as_numpy_sparse Some (fun _ => false) idq idq file 2 = Ok [[1%Q; 0%Q]; [0%Q; 4%Q]].
Proof.
  exists [[1%Q; 0%Q]; [0%Q; 4%Q]]. split; [|split; [repeat constructor|split; [|reflexivity]]].
  - intros line first rest E I. injection E as <- <-. cbn in I. destruct I as [<-|[<-|[]]]; reflexivity.
  - intros row x I J. cbn in I. destruct I as [<-|[<-|[]]]; cbn in J; destruct J as [<-|[<-|[]]]; discriminate.
Qed.

Print Assumptions C223_saved.
Print Assumptions C223_read_to_the_end.
Print Assumptions C223_later_points_refuted.
Print Assumptions C223_single_number_refuted.
Print Assumptions C223_unended_line_refuted.
Print Assumptions C224_agree.
Print Assumptions C224_negative_refuted.
Print Assumptions C224_short_line_refuted.
