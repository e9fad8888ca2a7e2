(** * Numbers as text: decimal numbers and six digits *)

From Coq Require Import String Ascii List Bool ZArith Znumtheory Zpow_facts Lia DecimalString DecimalPos DecimalZ SpecFloat.
From Verif Require Import StringModel FloatModel IeeeSpec FloatSpec IeeeProofs FloatProofs DecimalModel DecimalSpec RoundProofs DigitProofs.
Import ListNotations.
Open Scope Z_scope.

(** ** Reading decimal numbers *)

Lemma ten_pos k : 0 <= k -> 0 < 10 ^ k.
Proof. intros. apply Z.pow_pos_nonneg; lia. Qed.
Lemma parts_pos k : 0 < parts k.
Proof. unfold parts. destruct (Z.leb_spec 0 k); [lia|apply ten_pos; lia]. Qed.
Lemma steps_nonneg d k : 0 <= d -> 0 <= steps d k.
Proof. intros. pose proof one_pos. unfold steps. destruct (Z.leb_spec 0 k); [pose proof (ten_pos k)|]; nia. Qed.
Lemma steps_scale d k M : 0 <= M -> - k <= M -> steps d k * 10 ^ M = d * 10 ^ (k + M) * one * parts k.
Proof.
  intros. unfold steps, parts. destruct (Z.leb_spec 0 k).
  - rewrite Z.pow_add_r by lia. ring.
  - replace (d * 10 ^ (k + M) * one * 10 ^ (- k)) with (d * one * (10 ^ (k + M) * 10 ^ (- k))) by ring.
    rewrite <- Z.pow_add_r by lia. replace (k + M + - k) with M by lia. reflexivity.
Qed.

Lemma decimal_rounds s p k : rounds 53 1024 s (steps (Zpos p) k) (parts k) (double_of_decimal s (Zpos p) k).
Proof.
  unfold double_of_decimal, steps, parts. destruct (Z.leb_spec 0 k) as [L|L].
  - pose proof (ten_pos k L). destruct (Zpos p * 10 ^ k) as [|q|q] eqn:E; try lia.
    apply (binary_round_rounds 53 1024 ltac:(lia) ltac:(lia) s q 0). discriminate.
  - pose proof (ten_pos (- k) ltac:(lia)). destruct (10 ^ (- k)) as [|q|q] eqn:E; try lia.
    pose proof (div_rounds 53 1024 ltac:(lia) ltac:(lia) s p q) as H0.
    destruct (SFdiv_core_binary 53 1024 (Zpos p) 0 (Zpos q) 0) as [[m e] l]. exact H0.
Qed.
Opaque one.

Lemma stands_to_even s d k x : stands_for s d k x <->
  negative x = s /\ ~ too_large 53 1024 (steps d k) (parts k) /\ to_even 53 1024 s (steps d k) (parts k) x.
Proof.
  unfold stands_for, to_even.
  assert (N : forall w, FloatSpec.nearest Double (sign s * steps d k) (parts k) w <-> closest 53 1024 (sign s * steps d k) (parts k) w).
  { intros w. rewrite nearest_iff. change (step Double) with 1. rewrite Z.mul_1_r. reflexivity. }
  assert (V : forall w, fvalue Double w = units 53 1024 w) by (intros w; unfold fvalue; change (step Double) with 1; apply Z.mul_1_r).
  rewrite overflows_iff. change (step Double) with 1. rewrite Z.mul_1_r. change (fprec Double) with 53. change (femax Double) with 1024.
  split; intros (A & A' & B & C); split; auto; split; auto; split; try (apply N; assumption); intros w W NE;
    (apply (C w); [apply N, W|congruence]).
Qed.

Lemma zero_of_units x : is_number 53 1024 x -> units 53 1024 x = 0 -> x = S754_zero (negative x).
Proof.
  intros N E. apply (units_inj 53 1024 ltac:(lia)); [exact N|split; reflexivity|reflexivity|exact E].
Qed.

Lemma stands_double s d k x : 0 <= d -> ~ too_large 53 1024 (steps d k) (parts k) ->
  stands_for s d k x <-> x = double_of_decimal s d k.
Proof.
  intros D T. rewrite stands_to_even. pose proof (parts_pos k) as P. pose proof (steps_nonneg d k D) as S.
  destruct d as [|p|p]; [|clear D|lia].
  - assert (Z0 : steps 0 k = 0) by (unfold steps; destruct (0 <=? k); lia). rewrite Z0. cbn [double_of_decimal]. split.
    + intros (A & _ & (N & C) & _). rewrite <- A. apply zero_of_units; [exact N|].
      specialize (C (S754_zero s) ltac:(split; reflexivity)). cbn [units] in C. nia.
    + intros ->. split; [reflexivity|]. split; [rewrite <- Z0; exact T|]. split; [|reflexivity]. split; [split; reflexivity|]. intros w _. cbn [units]. lia.
  - pose proof (decimal_rounds s p k) as R. destruct (rounds_even 53 1024 ltac:(lia) ltac:(lia) s _ _ _ S P T R) as [E N].
    split.
    + intros (A & _ & B). apply (units_inj 53 1024 ltac:(lia)); [apply B|apply E|congruence|].
      apply (even_unique 53 1024 ltac:(lia) ltac:(lia) s (steps (Zpos p) k) (parts k)); auto.
      destruct R as (g & G & _). exists g. exact G.
    + intros ->. auto.
Qed.

Lemma double_overflow s d k : 0 <= d -> too_large 53 1024 (steps d k) (parts k) -> double_of_decimal s d k = S754_infinity s.
Proof.
  intros D T. pose proof (parts_pos k) as P. pose proof (steps_nonneg d k D) as S. destruct d as [|p|p]; [|clear D|lia].
  - exfalso. assert (Z0 : steps 0 k = 0) by (unfold steps; destruct (0 <=? k); lia). rewrite Z0 in T. unfold too_large in T.
    change ((2 ^ (53 + 1) - 1) * 2 ^ (1024 - 53 - emin 53 1024)) with ((2 ^ 54 - 1) * 2 ^ 2045) in T. cbn [Z.abs] in T.
    pose proof (pow2_pos 2045 ltac:(lia)). pose proof (pow2_pos 54 ltac:(lia)). generalize dependent (2 ^ 2045). intros u U Q.
    assert (1 < 2 ^ 54) by reflexivity. generalize dependent (2 ^ 54). intros. nia.
  - destruct (decimal_rounds s p k) as (g & G & R & _).
    destruct (rounded_intro 53 1024 ltac:(lia) ltac:(lia) s _ _ g _ S P G R) as [_ [[_ E]|[NT _]]]; [exact E|contradiction].
Qed.

(** ** Six digits *)

Lemma nearest_spec a b : 0 < b -> a / b <= nearest a b <= a / b + 1 /\ forall w, Z.abs (nearest a b * b - a) <= Z.abs (w * b - a).
Proof.
  intros B. assert (R := Z.mod_pos_bound a b B). assert (E := Z.div_mod a b ltac:(lia)). unfold nearest.
  set (q := a / b) in *. set (r := a mod b) in *.
  assert (C : 2 * Z.abs (nearest a b * b - a) <= b /\ q <= nearest a b <= q + 1).
  { unfold nearest. fold q r. destruct (Z.ltb_spec (2 * r) b); [nia|]. destruct (Z.ltb_spec b (2 * r)); [nia|]. destruct (Z.even q); nia. }
  unfold nearest in C. fold q r in C. set (m := if 2 * r <? b then _ else _) in *. split; [lia|]. intros w.
  destruct (Z.eq_dec w m) as [->|N]; [lia|]. assert (b <= Z.abs ((w - m) * b)) by (rewrite Z.abs_mul, (Z.abs_eq b) by lia; nia). lia.
Qed.

Lemma scaled_spec n d v y M a b : n * one = v * d -> 0 < d -> 0 <= M -> y <= M -> scaled n d y = (a, b) ->
  0 < b /\ a * (10 ^ (M - y) * one) = v * 10 ^ M * b.
Proof.
  intros E D M0 MY. unfold scaled. destruct (Z.leb_spec 0 y) as [L|L]; intros S; injection S as <- <-.
  - split; [exact D|]. replace (n * 10 ^ y * (10 ^ (M - y) * one)) with (n * one * (10 ^ y * 10 ^ (M - y))) by ring.
    rewrite E, <- Z.pow_add_r by lia. replace (y + (M - y)) with M by lia. ring.
  - split; [pose proof (ten_pos (- y) ltac:(lia)); nia|].
    replace (M - y) with (M + - y) by lia. rewrite Z.pow_add_r by lia.
    replace (n * (10 ^ M * 10 ^ (- y) * one)) with (n * one * (10 ^ M * 10 ^ (- y))) by ring. rewrite E. ring.
Qed.

Lemma exponent10_spec n d v M : n * one = v * d -> 0 < d -> 0 <= M -> forall steps start,
  Z.of_nat steps - start <= M -> v * 10 ^ M < 10 ^ (start + 1 + M) * one -> 10 ^ (start - Z.of_nat steps + M) * one <= v * 10 ^ M ->
  start - Z.of_nat steps <= exponent10 steps start n d <= start /\
  10 ^ (exponent10 steps start n d + M) * one <= v * 10 ^ M < 10 ^ (exponent10 steps start n d + 1 + M) * one.
Proof.
  intros E D M0. induction steps as [|k IH]; intros start B U L; cbn [exponent10].
  - change (Z.of_nat 0) with 0 in *. rewrite Z.sub_0_r in *. split; [lia|]. split; [exact L|exact U].
  - destruct (scaled n d (- start)) as [a b] eqn:S.
    destruct (scaled_spec n d v (- start) M a b E D M0 ltac:(lia) S) as [B0 EQ].
    replace (M - - start) with (start + M) in EQ by lia. pose proof one_pos as O. pose proof (ten_pos (start + M) ltac:(lia)) as T.
    assert (T' : 0 < 10 ^ (start + M) * one) by (apply Z.mul_pos_pos; assumption).
    destruct (Z.leb_spec b a) as [LE|GT].
    + split; [lia|]. split; [|exact U]. set (t := 10 ^ (start + M) * one) in *. set (V := v * 10 ^ M) in *. clear - EQ LE B0 T'. nia.
    + destruct (IH (start - 1)) as [H1 H2].
      * lia.
      * replace (start - 1 + 1 + M) with (start + M) by lia. set (t := 10 ^ (start + M) * one) in *. set (V := v * 10 ^ M) in *. clear - EQ GT B0 T'. nia.
      * replace (start - 1 - Z.of_nat k + M) with (start - Z.of_nat (Datatypes.S k) + M) by lia. exact L.
      * split; [lia|exact H2].
Qed.

Lemma one_small : one <= 10 ^ 324.
Proof. apply Z.leb_le. vm_compute. reflexivity. Qed.
Lemma top_small : 2 ^ 2098 <= 10 ^ 309 * one.
Proof. apply Z.leb_le. vm_compute. reflexivity. Qed.

Lemma six_core n d v M : n * one = v * d -> 0 < d -> 0 < v < 2 ^ 2098 -> 400 <= M ->
  let (D, X) := six_digits n d in
  10 ^ 5 <= D < 10 ^ 6 /\ - 324 <= X <= 310 /\
  exists x, - 324 <= x <= X /\ 10 ^ 5 * (10 ^ (x - 5 + M) * one) <= v * 10 ^ M /\
  forall w, Z.abs (D * (10 ^ (X - 5 + M) * one) - v * 10 ^ M) <= Z.abs (w * (10 ^ (x - 5 + M) * one) - v * 10 ^ M).
Proof.
  intros E D V MM. pose proof one_pos as O. unfold six_digits.
  destruct (exponent10_spec n d v M E D ltac:(lia) 633 309) as [X1 X2].
  { lia. }
  { change (309 + 1) with (1 + 309). pose proof top_small. rewrite !Z.pow_add_r by lia. pose proof (ten_pos M ltac:(lia)).
    pose proof (ten_pos 309 ltac:(lia)). generalize dependent (10 ^ 309). generalize dependent (2 ^ 2098). generalize dependent (10 ^ M). intros.
    change (10 ^ 1) with 10. assert (v * z < z1 * one * z) by (apply Z.mul_lt_mono_pos_r; lia). nia. }
  { change (309 - Z.of_nat 633) with (- 324). pose proof one_small as OS.
    assert (10 ^ M = 10 ^ 324 * 10 ^ (- 324 + M)) as -> by (rewrite <- Z.pow_add_r by lia; f_equal; lia).
    pose proof (ten_pos (- 324 + M) ltac:(lia)). generalize dependent (10 ^ (- 324 + M)). generalize dependent (10 ^ 324). intros.
    assert (one * z0 <= z * z0) by (apply Z.mul_le_mono_nonneg_r; lia). nia. }
  set (x := exponent10 633 309 n d) in *. change (309 - Z.of_nat 633) with (- 324) in X1.
  destruct (scaled n d (5 - x)) as [a b] eqn:S.
  destruct (scaled_spec n d v (5 - x) M a b E D ltac:(lia) ltac:(lia) S) as [B0 EQ].
  replace (M - (5 - x)) with (x - 5 + M) in EQ by lia.
  replace (x + M) with (5 + (x - 5 + M)) in X2 by lia. replace (x + 1 + M) with (6 + (x - 5 + M)) in X2 by lia.
  rewrite !(Z.pow_add_r 10 _ (x - 5 + M)) in X2 by lia.
  pose proof (ten_pos (x - 5 + M) ltac:(lia)) as T0.
  assert (T : 0 < 10 ^ (x - 5 + M) * one) by (apply Z.mul_pos_pos; assumption).
  rewrite <- !Z.mul_assoc in X2. set (t := 10 ^ (x - 5 + M) * one) in *. set (W := v * 10 ^ M) in *.
  destruct (nearest_spec a b B0) as [N1 N2]. set (m := nearest a b) in *.
  assert (AB : 10 ^ 5 * b <= a < 10 ^ 6 * b).
  { clear - X2 EQ B0 T. generalize dependent (10 ^ 5). generalize dependent (10 ^ 6). intros p q. intros [H1 H2]. nia. }
  assert (MB : 10 ^ 5 <= m <= 10 ^ 6).
  { assert (10 ^ 5 <= a / b) by (apply Z.div_le_lower_bound; lia). assert (a / b < 10 ^ 6) by (apply Z.div_lt_upper_bound; lia). lia. }
  assert (C : forall w, Z.abs (m * t - W) <= Z.abs (w * t - W)).
  { intros w. specialize (N2 w). assert (P : forall u, Z.abs (u * t - W) * b = Z.abs (u * b - a) * t).
    { intros u. rewrite <- (Z.abs_eq b) at 1 by lia. rewrite <- (Z.abs_eq t) at 2 by lia. rewrite <- !Z.abs_mul. f_equal.
      rewrite !Z.mul_sub_distr_r, EQ. ring. }
    apply (Z.mul_le_mono_pos_r _ _ b B0). rewrite !P. apply Z.mul_le_mono_nonneg_r; lia. }
  destruct (Z.eqb_spec m (10 ^ 6)) as [EM|NM].
  - split; [lia|]. split; [lia|]. exists x. split; [lia|]. split; [apply X2|]. intros w. specialize (C w). rewrite EM in C.
    replace (x + 1 - 5 + M) with (1 + (x - 5 + M)) by lia. rewrite Z.pow_add_r by lia.
    replace (10 ^ 5 * (10 ^ 1 * 10 ^ (x - 5 + M) * one)) with (10 ^ 6 * t) by (unfold t; change (10 ^ 6) with (10 ^ 5 * 10 ^ 1); ring). exact C.
  - split; [lia|]. split; [lia|]. exists x. split; [lia|]. split; [apply X2|]. exact C.
Qed.
