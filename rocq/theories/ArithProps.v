(** * Properties C13-C19: integer arithmetic, result types, Boolean operations *)

From Coq Require Import ZArith QArith List Bool Lia ZifyBool.
From Verif Require Import LangModel IndexModel IndexSpec LoopModel PolicyModel LocalModel
  LocalSpec LocalProps ExampleMem.
From Verif Require Import IntsModel ArithModel ArithSpec ArithProofs.
Import ListNotations.
Open Scope Z_scope.

(** ** C13: addition

    [w] tells whether signed overflow wraps; without, an overflow in a 32- or 64-bit signed
    type has no defined result and nothing is claimed about it. *)

Theorem C13_add_same_signedness w T1 T2 v1 v2 r :
  signed T1 = signed T2 -> fits_in T1 v1 -> fits_in T2 v2 ->
  add w T1 T2 v1 v2 = Some r ->
  (add_within_range T1 T2 v1 v2 r = true <-> r = v1 + v2) /\
  (r = v1 + v2 <-> fits_in (result_int T1 T2) (v1 + v2)).
Proof.
  intros. split; [eapply add_same; eauto|].
  apply (exact_iff w); auto using result_fits_l, result_fits_r.
Qed.
Print Assumptions C13_add_same_signedness.

(** [s] is the signed operand, [u] the unsigned one, in either order. *)
Theorem C13_add_mixed_signedness w Ts Tu s u r :
  signed Ts = true -> signed Tu = false -> fits_in Ts s -> fits_in Tu u ->
  add w Ts Tu s u = Some r ->
  (add_within_range Ts Tu s u r = true <->
     (0 < s /\ r = s + u) \/
     (s <= 0 /\ u = 0) \/
     (s <= 0 /\ 2 ^ 63 <= u /\ 2 ^ 63 <= s + u)) /\
  add w Tu Ts u s = Some r /\
  add_within_range Tu Ts u s r = add_within_range Ts Tu s u r.
Proof.
  intros S1 S2 F1 F2 H. split; [|split].
  - rewrite add_mixed by eauto. tauto.
  - now rewrite add_comm.
  - apply add_range_mixed_comm. congruence.
Qed.
Print Assumptions C13_add_mixed_signedness.

(** Unless a uint64 of 2^63 or more is involved, what is accepted is correct. *)
Corollary C13_add_never_wrong w Ts Tu s u r :
  signed Ts = true -> signed Tu = false -> fits_in Ts s -> fits_in Tu u -> u < 2 ^ 63 ->
  add w Ts Tu s u = Some r -> add_within_range Ts Tu s u r = true -> r = s + u.
Proof.
  intros S1 S2 F1 F2 B H A. pose proof H as H0.
  apply (add_mixed w) in A; auto. destruct A as [[_ A]|[A0 [->|[A _]]]]; [easy| |lia].
  apply op_in_conv in H. rewrite (conv_id _ 0) in H by apply fits0.
  rewrite Z.add_0_r in H. rewrite conv_id in H by apply conv_fits.
  rewrite conv_id in H; [lia|].
  unfold fits_in in *. destruct Ts, Tu; cbn in *; try discriminate; lia.
Qed.
Print Assumptions C13_add_never_wrong.

(** Correct sums are rejected (-1 + 5) and wrong ones accepted (0 + 2^63 in uint64). *)
Theorem C13_mixed_exactness_refuted :
  (exists r, add false S8 U8 (-1) 5 = Some r /\ r = -1 + 5 /\
     add_within_range S8 U8 (-1) 5 r = false) /\
  (exists r, add false S32 U64 0 (2 ^ 63) = Some r /\ r <> 0 + 2 ^ 63 /\
     add_within_range S32 U64 0 (2 ^ 63) r = true).
Proof. split; eexists; (split; [reflexivity|]); split; try reflexivity; discriminate. Qed.
Print Assumptions C13_mixed_exactness_refuted.

(** When the sum has no defined result. *)
Theorem C13_add_defined w T1 T2 v1 v2 :
  signed T1 = signed T2 -> fits_in T1 v1 -> fits_in T2 v2 ->
  (add w T1 T2 v1 v2 = None <->
   w = false /\ wide_signed (result_int T1 T2) /\ ~ fits_in (result_int T1 T2) (v1 + v2)).
Proof.
  intros S F1 F2. unfold add. destruct w.
  { split; [|easy]. intros H. now apply op_in_wrap in H. }
  rewrite op_in_strict.
  pose proof (result_fits_l T1 T2 v1 S F1) as R1. pose proof (result_fits_r T1 T2 v2 S F2) as R2.
  rewrite (conv_id _ v1), (conv_id _ v2) by easy.
  set (R := result_int T1 T2) in *. clearbody R. unfold wide_signed.
  split.
  - intros [P N]. split; [easy|].
    destruct R; cbn in P; try discriminate; auto;
      exfalso; apply N; unfold fits_in in *; cbn in *; lia.
  - intros (_ & [-> | ->] & N); split; try reflexivity; exact N.
Qed.
Print Assumptions C13_add_defined.

(** Adding two arrays of one integer type with the range policy of [add]: each element is
    the sum if it is representable, and marked as no-data otherwise. *)
Definition add_total (T : ity) (x y : Z) : Z :=
  match add true T T x y with Some r => r | None => 0 end.

Definition sum_outcome (T : ity) (a1 a2 : option Z) (o : outcome Z) : Prop :=
  match a1, a2 with
  | Some x, Some y =>
      (fits_in T (x + y) /\ o = Value (x + y)) \/
      (~ fits_in T (x + y) /\ exists r, o = OutOfRange r)
  | _, _ => o = NoData
  end.

Theorem C13_add_rasters T ip1 ip2 op a1 a2 rb m rows cols :
  0 <= rows -> 0 <= cols -> marks_result op rb -> a1 <> rb -> a2 <> rb ->
  (forall i, 0 <= i < rows * cols ->
     arg_exists ip1 a1 m i /\ arg_exists ip2 a2 m i /\ result_exists op rb m i) ->
  (forall i x, 0 <= i < rows * cols -> mval m a1 i = Some x -> fits_in T x) ->
  (forall i x, 0 <= i < rows * cols -> mval m a2 i = Some x -> fits_in T x) ->
  exists o,
    computes (binary_2d_2d (add_total T) (fun _ _ => true) (add_within_range T T)
                ip1 ip2 op a1 a2 rb cols (whole2 rows cols)) op rb (rows * cols) o m /\
    forall i, 0 <= i < rows * cols ->
      sum_outcome T (arg_at ip1 a1 m i) (arg_at ip2 a2 m i) (o i).
Proof.
  intros Hr Hc Hm H1 H2 Hex F1 F2. eexists. split.
  - apply C05_binary_2d_2d; auto.
  - intros i Hi. cbn beta. unfold sum_outcome, binary_outcome, arg_at.
    destruct (nd_at ip1 m i); [reflexivity|]. destruct (mval m a1 i) as [x|] eqn:E1; [|reflexivity].
    destruct (nd_at ip2 m i); [reflexivity|]. destruct (mval m a2 i) as [y|] eqn:E2; [|reflexivity].
    specialize (F1 i x Hi E1). specialize (F2 i y Hi E2).
    unfold add_total. destruct (add true T T x y) as [r|] eqn:A.
    2: { apply op_in_wrap in A. easy. }
    destruct (C13_add_same_signedness true T T x y r eq_refl F1 F2 A) as [P Q].
    replace (result_int T T) with T in Q by (destruct T; reflexivity).
    destruct (add_within_range T T x y r).
    + left. rewrite <- Q. split; [|f_equal]; now apply P.
    + right. split; [|now exists r]. rewrite <- Q, <- P. discriminate.
Qed.
Print Assumptions C13_add_rasters.

Example C13_cases :
  add false U8 U8 200 100 = Some 44 /\ add_within_range U8 U8 200 100 44 = false /\
  add false S16 S32 (-5) 7 = Some 2 /\ add_within_range S16 S32 (-5) 7 2 = true /\
  add true S32 S32 2147483647 1 = Some (-2147483648) /\
  add_within_range S32 S32 2147483647 1 (-2147483648) = false /\
  add false S32 S32 2147483647 1 = None /\
  add false S16 U8 3 5 = Some 8 /\ add_within_range S16 U8 3 5 8 = true.
Proof. repeat split. Qed.

(** ** C14: subtraction *)

Theorem C14_subtract_same_signedness w T1 T2 v1 v2 r :
  signed T1 = signed T2 -> fits_in T1 v1 -> fits_in T2 v2 ->
  subtract w T1 T2 v1 v2 = Some r ->
  (subtract_within_range T1 T2 v1 v2 r = true <-> r = v1 - v2) /\
  (r = v1 - v2 <-> fits_in (result_int T1 T2) (v1 - v2)).
Proof.
  intros. split; [eapply subtract_same; eauto|].
  apply (exact_iff w Z.sub); auto using result_fits_l, result_fits_r.
Qed.
Print Assumptions C14_subtract_same_signedness.

(** Mixed signedness: exact unless the first operand is a uint64 of 2^63 or more. *)
Theorem C14_subtract_mixed_signedness w T1 T2 v1 v2 r :
  signed T1 <> signed T2 -> fits_in T1 v1 -> fits_in T2 v2 -> v1 < 2 ^ 63 ->
  subtract w T1 T2 v1 v2 = Some r ->
  (subtract_within_range T1 T2 v1 v2 r = true <-> r = v1 - v2).
Proof.
  intros S F1 F2 B H. destruct (signed T1) eqn:S1, (signed T2) eqn:S2; try congruence.
  - eapply subtract_s_u; eauto.
  - eapply subtract_u_s; eauto.
Qed.
Print Assumptions C14_subtract_mixed_signedness.

(** In that case an accepted result is always wrong, by 2^64. *)
Theorem C14_subtract_big_unsigned w T2 v1 v2 r :
  signed T2 = true -> fits_in U64 v1 -> fits_in T2 v2 -> 2 ^ 63 <= v1 ->
  subtract w U64 T2 v1 v2 = Some r ->
  (subtract_within_range U64 T2 v1 v2 r = true <->
     (0 < v2 /\ 2 ^ 63 <= v1 - v2) \/ (v2 <= 0 /\ v1 - v2 < 2 ^ 64 + 2 ^ 63)) /\
  (subtract_within_range U64 T2 v1 v2 r = true -> r = v1 - v2 - 2 ^ 64).
Proof. apply subtract_u_s_big. Qed.
Print Assumptions C14_subtract_big_unsigned.

Theorem C14_subtract_defined w T1 T2 v1 v2 :
  signed T1 = signed T2 -> fits_in T1 v1 -> fits_in T2 v2 ->
  (subtract w T1 T2 v1 v2 = None <->
   w = false /\ wide_signed (result_int T1 T2) /\ ~ fits_in (result_int T1 T2) (v1 - v2)).
Proof.
  intros S F1 F2. unfold subtract. destruct w.
  { split; [|easy]. intros H. now apply op_in_wrap in H. }
  rewrite op_in_strict.
  pose proof (result_fits_l T1 T2 v1 S F1) as R1. pose proof (result_fits_r T1 T2 v2 S F2) as R2.
  rewrite (conv_id _ v1), (conv_id _ v2) by easy.
  set (R := result_int T1 T2) in *. clearbody R. unfold wide_signed.
  split.
  - intros [P N]. split; [easy|].
    destruct R; cbn in P; try discriminate; auto;
      exfalso; apply N; unfold fits_in in *; cbn in *; lia.
  - intros (_ & [-> | ->] & N); split; try reflexivity; exact N.
Qed.
Print Assumptions C14_subtract_defined.

(** A correct difference rejected and a wrong one accepted. *)
Theorem C14_big_unsigned_refuted :
  (exists r, subtract true U64 S32 (2 ^ 63) 1 = Some r /\ r = 2 ^ 63 - 1 /\
     subtract_within_range U64 S32 (2 ^ 63) 1 r = false) /\
  (exists r, subtract false U64 S32 (2 ^ 63 + 5) 1 = Some r /\ r <> 2 ^ 63 + 5 - 1 /\
     subtract_within_range U64 S32 (2 ^ 63 + 5) 1 r = true).
Proof. split; eexists; (split; [reflexivity|]); split; try reflexivity; discriminate. Qed.
Print Assumptions C14_big_unsigned_refuted.

Example C14_cases :
  subtract false U8 U8 3 5 = Some 254 /\ subtract_within_range U8 U8 3 5 254 = false /\
  subtract false S8 S8 (-100) 100 = Some 56 /\ subtract_within_range S8 S8 (-100) 100 56 = false /\
  subtract false U8 S8 3 5 = Some (-2) /\ subtract_within_range U8 S8 3 5 (-2) = true /\
  subtract false S8 U16 (-3) 5 = Some (-8) /\ subtract_within_range S8 U16 (-3) 5 (-8) = true.
Proof. repeat split. Qed.

(** ** C15: multiplication *)

(** For all pairs of integer types: the range policy accepts exactly the products whose
    absolute value is at most the maximum of the result type, and then the result is the
    product. *)
Theorem C15_multiply w T1 T2 v1 v2 :
  fits_in T1 v1 -> fits_in T2 v2 ->
  exists accepted, multiply_within_range w T1 T2 v1 v2 = Some accepted /\
    (accepted = true <-> Z.abs (v1 * v2) <= imax (result_int T1 T2)) /\
    (forall r, multiply w T1 T2 v1 v2 = Some r -> accepted = true -> r = v1 * v2).
Proof.
  intros F1 F2. eexists. split; [now apply multiply_range_spec|]. split.
  - apply Z.leb_le.
  - intros r H A. apply Z.leb_le in A. eapply multiply_correct; eauto.
Qed.
Print Assumptions C15_multiply.

(** Of the representable products only the minimum of a signed result type is rejected. *)
Theorem C15_rejects_only_minimum w T1 T2 v1 v2 :
  fits_in T1 v1 -> fits_in T2 v2 -> fits_in (result_int T1 T2) (v1 * v2) ->
  (multiply_within_range w T1 T2 v1 v2 = Some false <->
   signed (result_int T1 T2) = true /\ v1 * v2 = imin (result_int T1 T2)).
Proof.
  intros F1 F2 F. rewrite multiply_range_spec by easy. set (R := result_int T1 T2) in *.
  unfold fits_in in F. destruct (signed R) eqn:S.
  - rewrite imin_signed in * by easy. destruct (Z.leb_spec (Z.abs (v1 * v2)) (imax R)).
    + split; [discriminate|]. intros [_ E]. lia.
    + split; [|reflexivity]. intros _. split; [reflexivity|]. lia.
  - rewrite imin_unsigned in F by easy. replace (_ <=? _) with true by lia.
    split; [discriminate|]. intros [? _]. discriminate.
Qed.
Print Assumptions C15_rejects_only_minimum.

(** uint16 * uint16 is computed in [int] and can overflow there, which is undefined; so can
    products in the 32- and 64-bit signed types. *)
Theorem C15_multiply_defined w T1 T2 v1 v2 :
  signed T1 = signed T2 -> fits_in T1 v1 -> fits_in T2 v2 ->
  (multiply w T1 T2 v1 v2 = None <->
   w = false /\
   (wide_signed (result_int T1 T2) /\ ~ fits_in (result_int T1 T2) (v1 * v2) \/
    result_int T1 T2 = U16 /\ 2 ^ 31 <= v1 * v2)).
Proof.
  intros S F1 F2. unfold multiply. destruct w.
  { split; [|easy]. intros H. now apply op_in_wrap in H. }
  rewrite op_in_strict.
  pose proof (result_fits_l T1 T2 v1 S F1) as R1. pose proof (result_fits_r T1 T2 v2 S F2) as R2.
  rewrite (conv_id _ v1), (conv_id _ v2) by easy.
  set (R := result_int T1 T2) in *. clearbody R. unfold wide_signed.
  change (2 ^ 31) with 2147483648. split.
  - intros [P N]. split; [easy|].
    destruct R; cbn in P; try discriminate; auto;
      unfold fits_in in R1, R2, N; cbn in R1, R2, N.
    + exfalso. apply N. nia.
    + right. split; [easy|]. nia.
    + exfalso. apply N. nia.
    + exfalso. apply N. nia.
  - intros (_ & [[[-> | ->] N] | [-> N]]); split; try reflexivity; try exact N.
    intros [_ X]. cbn in X. lia.
Qed.
Print Assumptions C15_multiply_defined.

Example C15_cases :
  multiply_within_range false U8 U8 16 16 = Some false /\
  multiply_within_range false U8 U8 15 17 = Some true /\
  multiply false U8 U8 15 17 = Some 255 /\
  multiply_within_range false S8 S8 (-16) 8 = Some false /\ multiply false S8 S8 (-16) 8 = Some (-128) /\
  multiply_within_range false U64 S8 (2 ^ 62) (-1) = Some true /\
  multiply false U64 S8 (2 ^ 62) (-1) = Some (- 2 ^ 62) /\
  multiply false U16 U16 65535 65535 = None.
Proof. repeat split. Qed.

(** ** C16: division *)

(** The domain policy accepts exactly the non-zero divisors. *)
Theorem C16_domain T2 v2 : fits_in T2 v2 -> (divide_within_domain T2 v2 = true <-> v2 <> 0).
Proof. intros F. unfold divide_within_domain. rewrite eq0 by easy. lia. Qed.
Print Assumptions C16_domain.

(** Within the domain, the result is the truncated quotient, unless it is MIN / -1 or an
    operand is not representable in the result type. *)
Theorem C16_divide T1 T2 v1 v2 :
  fits_in (result_int T1 T2) v1 -> fits_in (result_int T1 T2) v2 -> v2 <> 0 ->
  ~ (v1 = imin (result_int T1 T2) /\ v2 = -1) ->
  divide T1 T2 v1 v2 = Some (Z.quot v1 v2) /\ divide_within_range v1 v2 (Z.quot v1 v2) = true.
Proof.
  intros. split; [|reflexivity]. apply divide_spec; auto. tauto.
Qed.
Print Assumptions C16_divide.

(** Operands are representable unless a uint64 of 2^63 or more meets a signed type. *)
Theorem C16_representable T1 T2 v1 v2 :
  fits_in T1 v1 -> fits_in T2 v2 -> signed T1 = signed T2 \/ v1 < 2 ^ 63 /\ v2 < 2 ^ 63 ->
  fits_in (result_int T1 T2) v1 /\ fits_in (result_int T1 T2) v2.
Proof.
  intros F1 F2 [S|[B1 B2]].
  - auto using result_fits_l, result_fits_r.
  - change (2 ^ 63) with 9223372036854775808 in *.
    unfold fits_in in *. destruct T1, T2; cbn in *; lia.
Qed.
Print Assumptions C16_representable.

(** MIN / -1: no defined result for 32 and 64 bits; for 8 and 16 bits MIN is returned, and
    not rejected by the range policy. *)
Theorem C16_minimum_by_minus_one T :
  signed T = true ->
  (wide_signed T -> divide T T (imin T) (-1) = None) /\
  (~ wide_signed T -> divide T T (imin T) (-1) = Some (imin T) /\
     divide_within_range (imin T) (-1) (imin T) = true /\
     imin T <> Z.quot (imin T) (-1)).
Proof.
  unfold wide_signed. intros S. destruct T; try discriminate; split; intros H;
    try (destruct H; discriminate); try (exfalso; apply H; auto; fail);
    try reflexivity; repeat split; discriminate.
Qed.
Print Assumptions C16_minimum_by_minus_one.

Theorem C16_big_unsigned_refuted :
  divide U64 S32 (2 ^ 63) 1 = Some (- 2 ^ 63) /\ Z.quot (2 ^ 63) 1 = 2 ^ 63.
Proof. split; reflexivity. Qed.
Print Assumptions C16_big_unsigned_refuted.

Example C16_cases :
  divide S8 S8 (-7) 2 = Some (-3) /\ divide U8 S16 200 (-7) = Some (-28) /\
  divide S32 S32 5 0 = None /\ divide_within_domain S32 0 = false.
Proof. repeat split. Qed.

(** ** C17: absolute value *)

Theorem C17_absolute w T v :
  fits_in T v ->
  (absolute_within_range T v = true <-> fits_in T (Z.abs v)) /\
  (absolute_within_range T v = true -> absolute w T v = Some (Z.abs v)).
Proof.
  intros F. pose proof (absolute_range T v F). split; [easy|].
  intros A. apply absolute_value; tauto.
Qed.
Print Assumptions C17_absolute.

(** The range policy is evaluated after the value has been computed; that of the minimum of
    a 32- or 64-bit type is undefined. *)
Theorem C17_minimum T :
  signed T = true ->
  absolute_within_range T (imin T) = false /\
  (absolute false T (imin T) = None <-> wide_signed T).
Proof.
  unfold wide_signed. intros S. destruct T; try discriminate; split; try reflexivity; split;
    try discriminate; auto; intros [?|?]; discriminate.
Qed.
Print Assumptions C17_minimum.

Example C17_cases :
  absolute false S8 (-127) = Some 127 /\ absolute_within_range S8 (-127) = true /\
  absolute_within_range S8 (-128) = false /\ absolute false S8 (-128) = Some (-128) /\
  absolute false U8 200 = Some 200.
Proof. repeat split. Qed.

(** ** C18: result types *)

(** The result type represents all values of both types exactly for the pairs that are not
    in the list [lossy]. *)
Theorem C18_result_represents_operands a b r :
  result_value a b = Some r ->
  ((forall q, has_value a q \/ has_value b q -> has_value r q) <-> ~ lossy a b).
Proof.
  intros H. split.
  - intros A [L|L].
    + destruct (lossy1_witness a b r H L) as (q & Q1 & Q2). apply Q2, A. auto.
    + rewrite result_value_comm in H.
      destruct (lossy1_witness b a r H L) as (q & Q1 & Q2). apply Q2, A. auto.
  - intros L q [A|A]; [eapply represent_l; eauto|].
    rewrite result_value_comm in H. eapply (represent_l b a); eauto. unfold lossy in *. tauto.
Qed.
Print Assumptions C18_result_represents_operands.

(** It exists except for bool with another type, does not depend on the order of the
    operands, and is one of the two types or, for integers of different signedness, a signed
    type. *)
Theorem C18_result_exists a b :
  (result_value a b = None <-> (a = VBool /\ b <> VBool) \/ (a <> VBool /\ b = VBool)) /\
  result_value a b = result_value b a /\
  (forall r, result_value a b = Some r ->
     r = a \/ r = b \/
     exists s t u, a = VInt s /\ b = VInt t /\ signed s <> signed t /\
       r = VInt u /\ signed u = true).
Proof.
  split; [|split].
  - destruct a, b; cbn; split; try discriminate; try (intros [[? ?]|[? ?]]; congruence).
    all: intros _; try (left; split; congruence); right; split; congruence.
  - apply result_value_comm.
  - intros r H. destruct a as [|s| |], b as [|t| |]; cbn in H; try discriminate;
      injection H as <-; auto.
    destruct (Bool.bool_dec (signed s) (signed t)) as [E|E].
    + unfold result_int. rewrite E, eqb_reflx. destruct (_ <? _); auto.
    + right; right. exists s, t, (result_int s t). repeat split; auto.
      now apply result_mixed.
Qed.
Print Assumptions C18_result_exists.

Example C18_cases :
  result_value (VInt U8) (VInt S8) = Some (VInt S16) /\
  result_value (VInt U32) (VInt S16) = Some (VInt S64) /\
  result_value (VInt U64) (VInt S8) = Some (VInt S64) /\ lossy (VInt U64) (VInt S8) /\
  result_value VFloat32 (VInt S32) = Some VFloat32 /\ lossy VFloat32 (VInt S32) /\
  ~ lossy (VInt U32) VFloat64.
Proof.
  repeat split; try (now left); try (right; cbn; lia). intros [L|L]; cbn in L; lia.
Qed.

(** ** C19: Boolean operations and comparisons *)

Theorem C19_boole {A B} (truth1 : A -> bool) (truth2 : B -> bool) x y :
  let P := truth1 x = true in
  let Q := truth2 y = true in
  (b_and truth1 truth2 x y = true <-> P /\ Q) /\
  (b_or truth1 truth2 x y = true <-> P \/ Q) /\
  (b_nor truth1 truth2 x y = true <-> ~ (P \/ Q)) /\
  (b_xor truth1 truth2 x y = true <-> (P /\ ~ Q) \/ (~ P /\ Q)) /\
  (b_xnor truth1 truth2 x y = true <-> (P <-> Q)) /\
  (b_not truth1 x = true <-> ~ P).
Proof.
  cbn. unfold b_and, b_or, b_nor, b_xor, b_xnor, b_not.
  destruct (truth1 x), (truth2 y); cbn; intuition discriminate.
Qed.
Print Assumptions C19_boole.

Theorem C19_truth z : truth_int z = true <-> z <> 0.
Proof. unfold truth_int. lia. Qed.
Print Assumptions C19_truth.

(** Comparisons are those of the mathematical values if the types have the same signedness,
    if the operands are not negative, or if the unsigned type is smaller than the signed
    one (or than [int]). *)
Theorem C19_comparisons T1 T2 v1 v2 :
  fits_in T1 v1 -> fits_in T2 v2 ->
  signed T1 = signed T2 \/ (0 <= v1 /\ 0 <= v2) \/ signed (common T1 T2) = true ->
  (less T1 T2 v1 v2 = true <-> v1 < v2) /\
  (less_equal T1 T2 v1 v2 = true <-> v1 <= v2) /\
  (greater T1 T2 v1 v2 = true <-> v1 > v2) /\
  (greater_equal T1 T2 v1 v2 = true <-> v1 >= v2).
Proof.
  intros F1 F2 H.
  assert (C : fits_in (common T1 T2) v1 /\ fits_in (common T1 T2) v2).
  { destruct H as [H|[[H1 H2]|H]].
    - split; [now apply common_l|now apply common_r].
    - split; [now apply common_nonneg_l|now apply common_nonneg_r].
    - unfold fits_in in *. destruct T1, T2; cbn in H; try discriminate; cbn in *; lia. }
  destruct C as [C1 C2].
  unfold less, less_equal, greater, greater_equal, tv_le, tv_gt, tv_ge.
  assert (C1' := C1). assert (C2' := C2). rewrite common_comm in C1', C2'.
  rewrite !tv_lt_exact by easy. lia.
Qed.
Print Assumptions C19_comparisons.

(** Otherwise the negative operand is taken modulo 2^w. *)
Theorem C19_comparison_mixed Ts Tu s u :
  signed Ts = true -> signed Tu = false -> signed (common Ts Tu) = false ->
  fits_in Ts s -> fits_in Tu u -> s < 0 ->
  less Ts Tu s u = (s + modulus (common Ts Tu) <? u) /\
  less Tu Ts u s = (u <? s + modulus (common Ts Tu)).
Proof.
  intros S1 S2 C F1 F2 N. unfold less, tv_lt. cbn [fst snd]. rewrite (common_comm Tu Ts).
  assert (conv (common Ts Tu) s = s + modulus (common Ts Tu)) as ->.
  { apply conv_under. unfold fits_in in *.
    destruct Ts, Tu; try discriminate; cbn in *; lia. }
  assert (conv (common Ts Tu) u = u) as ->.
  { apply conv_id. apply common_nonneg_r; [|easy]. now apply (nonneg_unsigned Tu). }
  auto.
Qed.
Print Assumptions C19_comparison_mixed.

Theorem C19_equal T v1 v2 :
  fits_in T v1 -> fits_in T v2 -> (equal T v1 v2 = true <-> v1 = v2).
Proof.
  intros. unfold equal. rewrite tv_eq_exact by (now apply common_l). lia.
Qed.
Print Assumptions C19_equal.

Theorem C19_mixed_comparison_refuted :
  less S32 U32 (-1) 1 = false /\ greater S32 U32 (-1) 1 = true /\
  less S8 U64 (-1) 1 = false.
Proof. repeat split. Qed.
Print Assumptions C19_mixed_comparison_refuted.

Example C19_cases :
  less S8 U8 (-1) 1 = true /\ signed (common S8 U8) = true /\
  b_xor truth_int truth_int 2 3 = false /\ b_xnor truth_int truth_int 2 3 = true /\
  b_and truth_int truth_int 2 4 = true.
Proof. repeat split. Qed.
