(** * Floating point literals of scripts *)

From Coq Require Import String Ascii List Bool ZArith Lia SpecFloat.
From Verif Require Import StringModel FloatModel IeeeSpec FloatSpec IeeeProofs FloatProofs DecimalModel ScriptModel ScriptSpec ScriptProofs ScriptProps
  DecimalSpec RoundProofs DigitProofs SixProofs DecimalProofs.
Import ListNotations.
Open Scope Z_scope.

(** The script that consists of a floating point literal, and its syntax tree *)
Definition literal (p q : pos) (x : spec_float) : list py_stmt := [SExpr p (PNum q (PyFloat x))].
Definition number (src : text) (p : pos) (y : spec_float) : outcome :=
  Tree (ModuleVertex src [ExpressionVertex (NumberVertex p (NumberFloat Double y))]).

Lemma literal_ok p q x : position_ok p -> position_ok q -> Forall python_stmt (literal p q x).
Proof. intros P Q. constructor; [|constructor]. constructor; [exact P|]. constructor. exact Q. Qed.

Lemma literal_read src p q x y : printable src -> position_ok p -> position_ok q ->
  read_double (show_double x) = Some y <-> parse_script src (literal p q x) = number src p y.
Proof.
  intros S P Q. unfold number. rewrite (C68_parses src _ _ S (literal_ok p q x P Q)). split.
  - intros R. eexists. split; [|reflexivity]. constructor; [|constructor]. apply D_expr. cbn [moved]. apply D_float, R.
  - intros (v & D & E). injection E as <-. inversion D; subst. inversion H2; subst. cbn [moved] in H0. inversion H0; subst. assumption.
Qed.

Lemma literal_lost src p q x : printable src -> position_ok p -> position_ok q ->
  read_double (show_double x) = None -> parse_script src (literal p q x) = Malformed.
Proof.
  intros S P Q R. pose proof (C68_outcome src (literal p q x) S (literal_ok p q x P Q) eq_refl) as H.
  cbn [literal flat_map stmt_faults faults moved] in H. rewrite R in H. exact H.
Qed.

Lemma fvalue_units x : fvalue Double x = units 53 1024 x.
Proof. unfold fvalue. change (step Double) with 1. apply Z.mul_1_r. Qed.

Lemma read_shown x : is_number 53 1024 x ->
  exists d k, closest_of_six (Z.abs (fvalue Double x)) d k /\
    read_double (show_double x) = Some (double_of_decimal (negative x) d k) /\
    stands_for (negative x) d k (double_of_decimal (negative x) d k).
Proof.
  intros N. rewrite fvalue_units.
  assert (H : exists d k, closest_of_six (Z.abs (units 53 1024 x)) d k /\ read_double (show_double x) = Some (double_of_decimal (negative x) d k)).
  { destruct x as [s|s| |s m e]; [|destruct N; discriminate|destruct N; discriminate|apply shown, N].
    exists 0, 0. split; [|apply zero_survives]. split; [unfold six; lia|]. intros d k _. pose proof (parts_pos 0). pose proof (parts_pos k).
    assert (Z.abs (steps 0 0 - Z.abs (units 53 1024 (S754_zero s)) * parts 0) = 0) as -> by reflexivity. rewrite Z.mul_0_l.
    apply Z.mul_nonneg_nonneg; lia. }
  destruct H as (d & k & C & R). exists d, k. split; [exact C|]. split; [exact R|].
  apply stands_double; [destruct C as [S _]; unfold six in S; lia| |reflexivity].
  apply (no_overflow _ _ _ (number_top x N) C).
Qed.

(** ** The claims *)

(** A finite literal is replaced by what a decimal number of at most six digits stands for, one
    that is closest to it. *)
Theorem C69_read src p q x : printable src -> position_ok p -> position_ok q ->
  is_number (fprec Double) (femax Double) x ->
  exists d k y, closest_of_six (Z.abs (fvalue Double x)) d k /\ stands_for (negative x) d k y /\
    parse_script src (literal p q x) = number src p y.
Proof.
  intros S P Q N. destruct (read_shown x N) as (d & k & C & R & ST). exists d, k. eexists. split; [exact C|]. split; [exact ST|].
  apply literal_read; assumption.
Qed.

(** The same holds wherever the literal is in a script: C68 says that a script is turned into
    what it denotes. *)
Theorem C69_anywhere p x : is_number (fprec Double) (femax Double) x ->
  exists d k y, closest_of_six (Z.abs (fvalue Double x)) d k /\ stands_for (negative x) d k y /\
    forall s a v, denotes s a (PNum p (PyFloat x)) v <-> v = NumberVertex p (NumberFloat Double y).
Proof.
  intros N. destruct (read_shown x N) as (d & k & C & R & ST). exists d, k. eexists. split; [exact C|]. split; [exact ST|].
  intros s a v. split.
  - intros D. inversion D; subst. congruence.
  - intros ->. apply D_float, R.
Qed.

(** It keeps its value exactly if it is what such a number stands for. *)
Theorem C69_survives src p q x : printable src -> position_ok p -> position_ok q ->
  is_number (fprec Double) (femax Double) x ->
  (parse_script src (literal p q x) = number src p x <->
   exists d k, six d /\ stands_for (negative x) d k x).
Proof.
  intros S P Q N. rewrite <- (literal_read src p q x x S P Q). destruct (read_shown x N) as (d & k & C & R & ST). rewrite R. split.
  - intros E. injection E as E. exists d, k. split; [apply C|]. rewrite E in ST. exact ST.
  - intros (l & kl & SL & SX). f_equal. symmetry. rewrite fvalue_units in C. apply (survives _ l kl x d k N SL SX C).
Qed.

(** What a decimal number stands for is determined by it, and there is something unless the
    number is too large. *)
Theorem C69_determined s d k : 0 <= d ->
  (forall x y, stands_for s d k x -> stands_for s d k y -> x = y) /\
  ((exists x, stands_for s d k x) <-> ~ overflows Double (steps d k) (parts k)).
Proof.
  intros D. split.
  - intros x y X Y. pose proof (proj1 (stands_to_even _ _ _ _) X) as (_ & T & _).
    apply (stands_double s d k) in X; [|exact D|exact T]. apply (stands_double s d k) in Y; [|exact D|exact T]. congruence.
  - split; [intros (x & _ & T & _); exact T|]. intros T. eexists. apply (stands_double s d k); [exact D| |reflexivity].
    rewrite overflows_iff in T. change (step Double) with 1 in T. rewrite Z.mul_1_r in T. exact T.
Qed.

(** A literal that is too large for a double, such as [1e999], makes the script malformed. *)
Theorem C69_infinite src p q x : printable src -> position_ok p -> position_ok q -> is_finite x = false ->
  parse_script src (literal p q x) = Malformed.
Proof.
  intros S P Q N. apply literal_lost; auto. destruct x as [s|[]| |s m e]; try discriminate N; reflexivity.
Qed.

(** Not every literal keeps its value: [1234567.0] is read as [1234570.0]. *)
Theorem C69_value_refuted src p q : printable src -> position_ok p -> position_ok q ->
  exists x y, stands_for false 1234567 0 x /\ stands_for false 1234570 0 y /\ x <> y /\
    parse_script src (literal p q x) = number src p y.
Proof.
  intros S P Q. exists (double_of_decimal false 1234567 0), (double_of_decimal false 1234570 0).
  assert (T : forall d, 0 <= d < 10 ^ 7 -> ~ too_large 53 1024 (steps d 0) (parts 0)).
  { intros d D H. unfold too_large in H. change ((2 ^ (53 + 1) - 1) * 2 ^ (1024 - 53 - emin 53 1024)) with H54 in H. pose proof H54_large as L.
    pose proof one_pos. unfold steps, parts in H. change (0 <=? 0) with true in H. cbv iota in H. change (10 ^ 0) with 1 in H.
    rewrite Z.abs_eq in H by (apply Z.mul_nonneg_nonneg; lia).
    assert (d * 1 * one < 10 ^ 308 * one) by (apply Z.mul_lt_mono_pos_r; [assumption|]; assert (10 ^ 7 < 10 ^ 308) by (apply Z.pow_lt_mono_r; lia); lia).
    rewrite Z.mul_1_l in H. rewrite <- Z.mul_assoc in L. lia. }
  split; [apply stands_double; [lia|apply T; lia|reflexivity]|]. split; [apply stands_double; [lia|apply T; lia|reflexivity]|].
  split; [vm_compute; discriminate|]. apply literal_read; auto.
Qed.

Print Assumptions C69_read.
Print Assumptions C69_anywhere.
Print Assumptions C69_survives.
Print Assumptions C69_determined.
Print Assumptions C69_infinite.
Print Assumptions C69_value_refuted.

(** ** Cases *)

Definition here : pos := At 1 0.

(** [0.1] keeps its value, and so do [-2.5e-07] and the smallest double, [5e-324]. *)
Example C69_tenth : parse_script (lit "<string>") (literal here here (double_of_decimal false 1 (-1))) =
  number (lit "<string>") here (double_of_decimal false 1 (-1)).
Proof. vm_compute. reflexivity. Qed.
Example C69_small : parse_script (lit "<string>") (literal here here (double_of_decimal true 25 (-8))) =
  number (lit "<string>") here (double_of_decimal true 25 (-8)).
Proof. vm_compute. reflexivity. Qed.
Example C69_smallest : read_double (show_double (S754_finite false 1 (-1074))) = Some (S754_finite false 1 (-1074)) /\
  show_double (S754_finite false 1 (-1074)) = lit "4.94066e-324".
Proof. vm_compute. split; reflexivity. Qed.
(** So does [1e23], which is in the middle between two doubles; the other one becomes it. *)
Example C69_middle : read_double (show_double (double_of_decimal false 1 23)) = Some (double_of_decimal false 1 23) /\
  (let other := SFadd 53 1024 (double_of_decimal false 1 23) (double_of_decimal false 1 7) in
   other <> double_of_decimal false 1 23 /\ read_double (show_double other) = Some (double_of_decimal false 1 23)).
Proof. vm_compute. repeat split; discriminate. Qed.
(** The largest double is not lost although six digits of it are less. *)
Example C69_largest : show_double (S754_finite false 9007199254740991 971) = lit "1.79769e+308" /\
  read_double (lit "1.79769e+308") = Some (double_of_decimal false 179769 303).
Proof. vm_compute. split; reflexivity. Qed.
