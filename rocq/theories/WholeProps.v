(** * Property C97: rounding to whole numbers *)
From Coq Require Import ZArith List Bool Lia SpecFloat.
From Verif Require Import LangModel ConcModel IndexSpec LoopModel LoopSpec PolicyModel LocalModel LocalSpec LocalProps ExampleMem
  IntsModel FloatModel IeeeSpec IeeeProofs FloatSpec FloatProofs MathModel MathSpec MathProps WholeModel WholeSpec WholeProofs.
Import ListNotations.
Open Scope Z_scope.

(** Floor, ceil, trunc and round give the whole number that belongs to the element, exactly, with the
    sign of the element; infinities and NaN stay what they are; no-data stays no-data, and nothing
    else is marked.  So for arrays and rasters and for all numbers of threads. *)
Theorem C97_rasters f o ip op a rb m rows cols :
  0 <= rows < 2 ^ 64 -> 0 <= cols -> marks_result op rb -> a <> rb ->
  (forall i, 0 <= i < rows * cols -> arg_exists ip a m i /\ result_exists op rb m i) ->
  (forall i v, 0 <= i < rows * cols -> mval m a i = Some v -> is_float (fprec f) (femax f) v) ->
  exists out,
    (forall i, 0 <= i < rows * cols -> element_rounded f o ip a m i (out i)) /\
    computes (unary_2d (algorithm f o) every_value every_rounded ip op a rb cols (whole2 rows cols)) op rb (rows * cols) out m /\
    sequential_and_parallel_2d rows cols (unary_2d (algorithm f o) every_value every_rounded ip op a rb cols) m /\
    (cols = 1 ->
       computes (unary_1d (algorithm f o) every_value every_rounded ip op a rb (whole1 rows)) op rb rows out m /\
       sequential_and_parallel_1d rows (unary_1d (algorithm f o) every_value every_rounded ip op a rb) m) /\
    (rows = 1 -> cols = 1 -> computes (unary_0d (algorithm f o) every_value every_rounded ip op a rb) op rb 1 (fun _ => out 0) m).
Proof.
  intros Hr Hc Hm Ha Hex Hf.
  exists (fun i => unary_outcome (algorithm f o) every_value every_rounded (arg_at ip a m i)). split; [|split; [|split; [|split]]].
  - intros i Hi. unfold element_rounded, unary_outcome, every_value, every_rounded. destruct (arg_at ip a m i) as [x|] eqn:E; auto.
    eexists. split; [reflexivity|]. apply algorithm_rounds. apply (Hf i); auto. unfold arg_at in E. destruct (nd_at ip m i); congruence.
  - apply C06_unary_2d; auto; lia.
  - apply (C10_parallel_2d ip ip op a a rb); auto; intros; apply Hex; auto.
  - intros ->. rewrite Z.mul_1_r in *. split; [apply C06_unary_1d; auto; lia|].
    apply (C10_parallel_1d ip ip op a a rb); auto; intros; apply Hex; auto.
  - intros -> ->. apply C06_unary_0d; auto; apply Hex; lia.
Qed.
Print Assumptions C97_rasters.

(** There is one such result. *)
Theorem C97_unique f o x r r' : is_float (fprec f) (femax f) x -> rounds_to f o x r -> rounds_to f o x r' -> r = r'.
Proof.
  intros F A B. assert (ON := one_pos). assert (NE : o = OAbsolute \/ o <> OAbsolute) by (destruct o; auto; right; discriminate). destruct NE as [->|N].
  - destruct A as [A1 A2], B as [B1 B2]. destruct x as [s|s| |s m e]; [| |rewrite A1, B1; auto|];
      (destruct A2 as [A2 [-> | ->]]; [discriminate|destruct B2 as [B2 [-> | ->]]; [discriminate|auto|]|destruct B2 as [B2 [-> | ->]]; [discriminate| |auto]]);
      cbn [minus SFopp] in *; destruct s; discriminate.
  - assert (K : if is_finite x then
      (is_number (fprec f) (femax f) r /\ minus r = minus x /\ exists z, fvalue f r = z * one /\ whole_of o (fvalue f x) z) /\
      (is_number (fprec f) (femax f) r' /\ minus r' = minus x /\ exists z, fvalue f r' = z * one /\ whole_of o (fvalue f x) z)
      else r = x /\ r' = x) by (destruct o; try congruence; cbn [rounds_to] in A, B; destruct (is_finite x); auto).
    destruct (is_finite x) eqn:E; [|destruct K; congruence].
    destruct K as [(R1 & R2 & z & R3 & R4) (S1 & S2 & z' & S3 & S4)]. apply (same_number f); auto; [congruence|].
    assert (SG : forall y k, is_number (fprec f) (femax f) y -> minus y = minus x -> fvalue f y = k * one -> 0 <= k * fvalue f x).
    { intros y k Y1 Y2 Y3. destruct (Z.eq_dec k 0) as [->|Nk]; [lia|]. destruct (Z.eq_dec (fvalue f x) 0) as [->|Nx]; [lia|].
      rewrite (minus_value f y) in Y2 by (auto; nia). rewrite (minus_value f x) in Y2 by (auto; split; auto). rewrite Y3 in Y2.
      destruct (Z.ltb_spec (k * one) 0), (Z.ltb_spec (fvalue f x) 0); try discriminate; nia. }
    rewrite R3, S3. f_equal. apply (whole_unique o (fvalue f x)); auto. intros _. split; [apply (SG r)|apply (SG r')]; auto.
Qed.
Print Assumptions C97_unique.

(** Whole numbers are not changed, so that rounding what is rounded does not change it. *)
Theorem C97_whole f o x : o <> OAbsolute -> is_float (fprec f) (femax f) x -> (whole f x \/ is_finite x = false) -> algorithm f o x = x.
Proof.
  intros N F W. assert (ON := one_pos). apply (C97_unique f o x); auto; [apply algorithm_rounds; auto|].
  destruct W as [[E (n & W)]|E]; [|destruct o; try congruence; cbn [rounds_to]; rewrite E; auto].
  assert (K : is_number (fprec f) (femax f) x /\ minus x = minus x /\ exists z, fvalue f x = z * one /\ whole_of o (fvalue f x) z).
  { split; [split; auto|]. split; auto. exists n. split; auto. rewrite W. destruct o; try congruence; cbn [whole_of]; rewrite ?Z.abs_mul, ?(Z.abs_eq one), ?Z.sub_diag by lia; nia. }
  destruct o; try congruence; cbn [rounds_to]; rewrite E; exact K.
Qed.
Print Assumptions C97_whole.

Lemma algorithm_whole f o x : o <> OAbsolute -> is_float (fprec f) (femax f) x ->
  is_float (fprec f) (femax f) (algorithm f o x) /\ (whole f (algorithm f o x) \/ is_finite (algorithm f o x) = false).
Proof.
  intros N F. assert (R := algorithm_rounds f o x F). destruct (is_finite x) eqn:E.
  - assert (K : is_number (fprec f) (femax f) (algorithm f o x) /\ exists z, fvalue f (algorithm f o x) = z * one).
    { destruct o; try congruence; cbn [rounds_to] in R; rewrite E in R; destruct R as (R1 & _ & z & R2 & _); eauto. }
    destruct K as [[K1 K2] K3]. split; auto. left. split; auto.
  - assert (K : algorithm f o x = x) by (destruct o; try congruence; cbn [rounds_to] in R; rewrite E in R; exact R). rewrite K. auto.
Qed.

Theorem C97_again f o o' x : o <> OAbsolute -> o' <> OAbsolute -> is_float (fprec f) (femax f) x ->
  algorithm f o (algorithm f o' x) = algorithm f o' x.
Proof. intros N N' F. destruct (algorithm_whole f o' x N' F) as [A B]. apply C97_whole; auto. Qed.
Print Assumptions C97_again.

(** The order of the values is kept. *)
Theorem C97_order f o x y : o <> OAbsolute -> is_number (fprec f) (femax f) x -> is_number (fprec f) (femax f) y ->
  fvalue f x <= fvalue f y -> fvalue f (algorithm f o x) <= fvalue f (algorithm f o y).
Proof.
  intros N [X1 X2] [Y1 Y2] L. assert (ON := one_pos). assert (RX := algorithm_rounds f o x X1). assert (RY := algorithm_rounds f o y Y1).
  assert (K : forall v, is_float (fprec f) (femax f) v -> is_finite v = true -> rounds_to f o v (algorithm f o v) ->
    exists z, fvalue f (algorithm f o v) = z * one /\ whole_of o (fvalue f v) z /\ 0 <= z * fvalue f v).
  { intros v V1 V2 R. assert (R' : is_number (fprec f) (femax f) (algorithm f o v) /\ minus (algorithm f o v) = minus v /\
      exists z, fvalue f (algorithm f o v) = z * one /\ whole_of o (fvalue f v) z) by (destruct o; try congruence; cbn [rounds_to] in R; rewrite V2 in R; auto).
    destruct R' as (R1 & R2 & z & R3 & R4). exists z. split; auto. split; auto.
    destruct (Z.eq_dec z 0) as [->|Nk]; [lia|]. destruct (Z.eq_dec (fvalue f v) 0) as [E0|Nx]; [rewrite E0; lia|].
    rewrite (minus_value f _ R1), (minus_value f v) in R2 by (auto; try (split; auto); nia). rewrite R3 in R2.
    destruct (Z.ltb_spec (z * one) 0), (Z.ltb_spec (fvalue f v) 0); try discriminate; nia. }
  destruct (K x X1 X2 RX) as (z & Z1 & Z2 & Z3). destruct (K y Y1 Y2 RY) as (w & W1 & W2 & W3). rewrite Z1, W1.
  clear K RX RY Z1 W1 X1 X2 Y1 Y2. set (a := fvalue f x) in *. set (b := fvalue f y) in *. clearbody a b.
  assert (C : forall p q, p * one < q * one -> p < q) by (intros p q H; apply (Z.mul_lt_mono_pos_r one); auto).
  apply Z.mul_le_mono_nonneg_r; [lia|]. destruct (Z_le_gt_dec z w) as [|G]; auto. exfalso.
  destruct o; try congruence; cbn [whole_of] in *.
  - assert (z < w + 1) by (apply C; lia). lia.
  - assert (z - 1 < w) by (apply C; lia). lia.
  - assert (T : z < w + 1); [|lia]. destruct (Z_le_gt_dec 0 w) as [Hw|Hw].
    + assert (A0 : 0 <= a) by (apply (Z.mul_nonneg_cancel_l z); lia). apply C. rewrite !Z.abs_eq in * by lia. lia.
    + assert (B0 : b <= 0) by (destruct (Z_le_gt_dec b 0); auto; assert (w * b < 0) by (apply Z.mul_neg_pos; lia); lia).
      rewrite (Z.abs_neq w), (Z.abs_neq b), (Z.abs_neq a) in * by lia.
      assert (B1 : 1 * one <= - w * one) by (apply Z.mul_le_mono_nonneg_r; lia).
      assert (Zn : z <= 0) by (destruct (Z_le_gt_dec z 0); auto; assert (z * a < 0) by (apply Z.mul_pos_neg; lia); lia).
      rewrite (Z.abs_neq z) in * by lia. assert (- w < - z + 1) by (apply C; lia). lia.
  - destruct Z2 as [Z2 Z4], W2 as [W2 W4]. assert (GE : (w + 1) * one <= z * one) by (apply Z.mul_le_mono_nonneg_r; lia). rewrite Z.mul_add_distr_r, Z.mul_1_l in GE.
    assert (a = b) by lia. subst b. assert (z = w); [|lia]. apply (whole_unique ORound a); [discriminate|discriminate|split; auto|split; auto].
Qed.
Print Assumptions C97_order.

(** Floor is the opposite of ceil; the other two treat both signs alike. *)
Definition mirrored (o : rounding_op) : rounding_op := match o with OFloor => OCeil | OCeil => OFloor | _ => o end.
Theorem C97_opposite f o x : o <> OAbsolute -> is_float (fprec f) (femax f) x -> algorithm f (mirrored o) (SFopp x) = SFopp (algorithm f o x).
Proof.
  intros N F. assert (ON := one_pos).
  assert (FO : forall y, is_float (fprec f) (femax f) y -> is_float (fprec f) (femax f) (SFopp y)) by (intros [| | |]; auto).
  assert (VO : forall y, fvalue f (SFopp y) = - fvalue f y) by (intros [s|s| |s m e]; try reflexivity; unfold fvalue; cbn [units SFopp]; destruct s; cbn [negb]; lia).
  assert (IO : forall y, is_finite (SFopp y) = is_finite y) by (intros []; reflexivity).
  assert (MO : forall y, is_finite y = true -> minus (SFopp y) = negb (minus y)) by (intros []; try discriminate; reflexivity).
  apply (C97_unique f (mirrored o) (SFopp x)); auto; [apply algorithm_rounds; auto|].
  assert (R := algorithm_rounds f o x F). destruct (is_finite x) eqn:E.
  - assert (R' : is_number (fprec f) (femax f) (algorithm f o x) /\ minus (algorithm f o x) = minus x /\
      exists z, fvalue f (algorithm f o x) = z * one /\ whole_of o (fvalue f x) z) by (destruct o; try (exfalso; exact (N eq_refl)); cbn [rounds_to] in R; rewrite E in R; exact R).
    destruct R' as ([R0 R1] & R2 & z & R3 & R4).
    assert (K : is_number (fprec f) (femax f) (SFopp (algorithm f o x)) /\ minus (SFopp (algorithm f o x)) = minus (SFopp x) /\
      exists z, fvalue f (SFopp (algorithm f o x)) = z * one /\ whole_of (mirrored o) (fvalue f (SFopp x)) z).
    { split; [split; [auto|rewrite IO; auto]|]. split; [rewrite !MO by assumption; rewrite R2; reflexivity|]. exists (- z). rewrite !VO, R3. split; [ring|].
      destruct o; try (exfalso; exact (N eq_refl)); cbn [mirrored whole_of] in *.
      - nia.
      - nia.
      - rewrite !Z.abs_opp. auto.
      - rewrite Z.mul_opp_l, !Z.abs_opp. replace (- (z * one) - - fvalue f x) with (- (z * one - fvalue f x)) by ring. rewrite Z.abs_opp. auto. }
    destruct o; try (exfalso; exact (N eq_refl)); cbn [mirrored rounds_to]; rewrite IO, E; exact K.
  - assert (K : algorithm f o x = x) by (destruct o; try (exfalso; exact (N eq_refl)); cbn [rounds_to] in R; rewrite E in R; exact R). rewrite K.
    destruct o; try (exfalso; exact (N eq_refl)); cbn [mirrored rounds_to]; rewrite IO, E; reflexivity.
Qed.
Print Assumptions C97_opposite.

(** This [round] is as factorials (C66) need it. *)
Theorem C97_factorial f tgamma x : (forall y, is_float (fprec f) (femax f) y -> is_float (fprec f) (femax f) (tgamma y)) ->
  is_float (fprec f) (femax f) x ->
  let g := tgamma (SFadd (fprec f) (femax f) x (fone f)) in
  (~ (at_least_zero f x /\ (whole f x \/ x = S754_infinity false)) -> ffactorial f tgamma (std_round f) x = Some Marked) /\
  (at_least_zero f x -> whole f x \/ x = S754_infinity false ->
     ffactorial f tgamma (std_round f) x = Some (if is_finite g then Written (std_round f g) else Marked)).
Proof.
  intros G F. apply C66_float; auto. split.
  - intros y Y W. apply (C97_whole f ORound y); auto. discriminate.
  - intros y Y. assert (R := algorithm_rounds f ORound y Y). cbn [rounds_to algorithm] in R. destruct (is_finite y) eqn:E; [apply R|rewrite R; auto].
Qed.
Print Assumptions C97_factorial.

Example C97_case :
  let x := S754_finite true 5629499534213120 (-51) in  (* -2.5 *)
  std_floor Double x = S754_finite true 6755399441055744 (-51) /\ std_ceil Double x = S754_finite true 4503599627370496 (-51) /\
  std_trunc Double x = std_ceil Double x /\ std_round Double x = std_floor Double x /\
  std_ceil Double (S754_finite true 4503599627370496 (-53)) = S754_zero true /\
  let m := mem_of [[x; S754_nan; x]; [x; x; x]] [[false; false; true]; [false; false; false]] in
  let r := run (unary_2d (algorithm Double ORound) every_value every_rounded (DetectByMask 0 true) (MarkByMask 1 true) 0 1 1 (whole2 3 1)) m in
  values_of r 1 3 = [Some (S754_finite true 6755399441055744 (-51)); Some S754_nan; Some x] /\ mask_of r 1 3 = [Some false; Some false; Some true].
Proof. repeat split; vm_compute; reflexivity. Qed.

(** "Rounding is adding a half and taking the floor": not for the largest number below a half. *)
Theorem C97_half_refuted :
  exists x half, is_number (fprec Double) (femax Double) x /\ 2 * fvalue Double half = one /\
    std_round Double x = S754_zero false /\ std_floor Double (SFadd (fprec Double) (femax Double) x half) = fone Double.
Proof.
  exists (S754_finite false 9007199254740991 (-54)), (S754_finite false 4503599627370496 (-53)).
  split; [split; reflexivity|]. split; [vm_compute; reflexivity|]. split; vm_compute; reflexivity.
Qed.
Print Assumptions C97_half_refuted.
