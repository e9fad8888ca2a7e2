(** * Numbers as text: what is read again *)

From Coq Require Import String Ascii List Bool ZArith Znumtheory Zpow_facts Lia DecimalString DecimalPos DecimalZ SpecFloat.
From Verif Require Import StringModel FloatModel IeeeSpec FloatSpec IeeeProofs FloatProofs DecimalModel DecimalSpec RoundProofs DigitProofs SixProofs.
Import ListNotations.
Open Scope Z_scope.

Opaque one.

Definition ten (d k M : Z) : Z := d * (10 ^ (k + M) * one).
Lemma steps_ten d k M : 0 <= M -> - k <= M -> steps d k * 10 ^ M = ten d k M * parts k.
Proof. intros. rewrite steps_scale by assumption. unfold ten. ring. Qed.
Lemma ten_unit k M : 0 <= k + M -> 0 < 10 ^ (k + M) * one.
Proof. intros. apply Z.mul_pos_pos; [apply ten_pos; assumption|apply one_pos]. Qed.
Lemma ten_raise d k j M : 0 <= j -> 0 <= k + M -> ten d (k + j) M = d * 10 ^ j * (10 ^ (k + M) * one).
Proof. intros. unfold ten. replace (k + j + M) with (j + (k + M)) by lia. rewrite Z.pow_add_r by lia. ring. Qed.

Lemma distance_scaled v d k M : 0 <= M -> - k <= M ->
  Z.abs (steps d k - v * parts k) * 10 ^ M = Z.abs (ten d k M - v * 10 ^ M) * parts k.
Proof.
  intros A B. pose proof (parts_pos k). pose proof (ten_pos M A).
  rewrite <- (Z.abs_eq (10 ^ M)) at 1 by lia. rewrite <- (Z.abs_eq (parts k)) at 2 by lia. rewrite <- !Z.abs_mul. f_equal.
  rewrite !Z.mul_sub_distr_r, steps_ten by assumption. ring.
Qed.
Lemma closest_scaled v d k d' k' M : 0 <= M -> - k <= M -> - k' <= M ->
  Z.abs (steps d k - v * parts k) * parts k' <= Z.abs (steps d' k' - v * parts k') * parts k <->
  Z.abs (ten d k M - v * 10 ^ M) <= Z.abs (ten d' k' M - v * 10 ^ M).
Proof.
  intros A B C. pose proof (distance_scaled v d k M A B) as E1. pose proof (distance_scaled v d' k' M A C) as E2.
  pose proof (parts_pos k) as P1. pose proof (parts_pos k') as P2. pose proof (ten_pos M A) as P3.
  set (a := Z.abs (steps d k - v * parts k)) in *. set (b := Z.abs (steps d' k' - v * parts k')) in *.
  set (p := Z.abs (ten d k M - v * 10 ^ M)) in *. set (q := Z.abs (ten d' k' M - v * 10 ^ M)) in *.
  set (u := parts k) in *. set (w := parts k') in *. set (t := 10 ^ M) in *. clearbody a b p q u w t.
  rewrite (Z.mul_le_mono_pos_r _ _ t P3). replace (a * w * t) with (p * (u * w)) by (rewrite Z.mul_assoc, <- E1; ring).
  replace (b * u * t) with (q * (u * w)) by (rewrite (Z.mul_comm u w), Z.mul_assoc, <- E2; ring).
  symmetry. apply Z.mul_le_mono_pos_r. apply Z.mul_pos_pos; assumption.
Qed.

Lemma six_spec n d v : n * one = v * d -> 0 < d -> 0 < v < 2 ^ 2098 ->
  let (D, X) := six_digits n d in 10 ^ 5 <= D < 10 ^ 6 /\ closest_of_six v D (X - 5).
Proof.
  intros E D V. pose proof (fun M => six_core n d v M E D V) as C. destruct (six_digits n d) as [Y X].
  destruct (C 400 ltac:(lia)) as (B & R & _). split; [exact B|]. split; [unfold six; lia|]. intros d' k' S.
  set (M := 400 + Z.abs k'). destruct (C M ltac:(unfold M; lia)) as (_ & _ & x & XB & L & W).
  apply (closest_scaled v Y (X - 5) d' k' M); try (unfold M; lia). unfold ten at 1.
  pose proof (ten_unit (x - 5) M ltac:(unfold M; lia)) as T. unfold six in S.
  destruct (Z.le_gt_cases (x - 5) k') as [G|G].
  - replace k' with (x - 5 + (k' - (x - 5))) by lia. rewrite ten_raise by (unfold M; lia). apply W.
  - specialize (W (10 ^ 5)).
    assert (ten d' k' M <= 10 ^ 5 * (10 ^ (x - 5 + M) * one)).
    { unfold ten. replace (x - 5 + M) with ((x - 5 - k' - 1) + (1 + (k' + M))) by lia.
      rewrite (Z.pow_add_r 10 (x - 5 - k' - 1)), (Z.pow_add_r 10 1) by (unfold M; lia). pose proof (ten_pos (x - 5 - k' - 1) ltac:(lia)) as T1.
      pose proof (ten_unit k' M ltac:(unfold M; lia)) as T2.
      replace (10 ^ 5 * (10 ^ (x - 5 - k' - 1) * (10 ^ 1 * 10 ^ (k' + M)) * one)) with (10 ^ (x - 5 - k' - 1) * (10 ^ 6 * (10 ^ (k' + M) * one))) by (change (10 ^ 6) with (10 ^ 5 * 10 ^ 1); ring).
      generalize dependent (10 ^ (k' + M) * one). generalize dependent (10 ^ (x - 5 - k' - 1)). intros. nia. }
    lia.
Qed.

Lemma closest_shorter v D k d j : 0 <= j -> D = d * 10 ^ j -> 0 <= d -> closest_of_six v D k -> closest_of_six v d (k + j).
Proof.
  intros J E D0 [S C]. pose proof (ten_pos j J). split; [unfold six in *; nia|]. intros d' k' S'. specialize (C d' k' S').
  set (M := Z.abs k + Z.abs k'). apply (closest_scaled v D k d' k' M) in C; try (unfold M; lia).
  apply (closest_scaled v d (k + j) d' k' M); try (unfold M; lia). rewrite ten_raise by (unfold M; lia). rewrite <- E. exact C.
Qed.

Lemma finite_value s m e : is_number 53 1024 (S754_finite s m e) ->
  let (n, d) := if 0 <=? e then (Zpos m * 2 ^ e, 1) else (Zpos m, 2 ^ (- e)) in
  0 < d /\ n * one = Z.abs (units 53 1024 (S754_finite s m e)) * d.
Proof.
  intros [F _]. destruct (canonical 53 1024 s m e F) as [C1 C2]. change (emin 53 1024) with (-1074) in C1. cbn [units].
  change (emin 53 1024) with (-1074). assert (O : one = 2 ^ 1074) by reflexivity. rewrite O.
  assert (Z.abs ((if s then -1 else 1) * (Zpos m * 2 ^ (e - -1074))) = Zpos m * 2 ^ (e - -1074)) as ->.
  { pose proof (pow2_pos (e - -1074) ltac:(lia)). destruct s; nia. }
  destruct (Z.leb_spec 0 e).
  - split; [lia|]. rewrite Z.mul_1_r, <- Z.mul_assoc, <- Z.pow_add_r by lia. do 2 f_equal.
  - split; [apply pow2_pos; lia|]. rewrite <- Z.mul_assoc, <- Z.pow_add_r by lia. do 2 f_equal. lia.
Qed.

Lemma shown s m e : is_number 53 1024 (S754_finite s m e) ->
  exists d k, closest_of_six (Z.abs (units 53 1024 (S754_finite s m e))) d k /\
    read_double (show_double (S754_finite s m e)) = Some (double_of_decimal s d k).
Proof.
  intros N. pose proof (finite_value s m e N) as V. set (v := Z.abs (units 53 1024 (S754_finite s m e))) in *.
  assert (VB : 0 < v < 2 ^ 2098).
  { split; [|exact (number_below 53 1024 ltac:(lia) ltac:(lia) _ N)]. unfold v. destruct N as [F _].
    destruct (canonical 53 1024 s m e F) as [C1 C2]. cbn [units]. pose proof (pow2_pos (e - emin 53 1024) ltac:(lia)). destruct s; nia. }
  unfold show_double. destruct (if 0 <=? e then (Zpos m * 2 ^ e, 1) else (Zpos m, 2 ^ (- e))) as [n d]. destruct V as [V1 V2].
  pose proof (six_spec n d v V2 V1 VB) as S. destruct (six_digits n d) as [D X]. destruct S as [DB C].
  destruct (show_six_read s D X DB) as (d' & j & J & E & R).
  exists d', (X - 5 + j). split.
  - apply closest_shorter with D; auto. pose proof (ten_pos j J). nia.
  - rewrite read_double_signed by (apply show_six_head, DB). exact R.
Qed.

Lemma zero_survives s : read_double (show_double (S754_zero s)) = Some (S754_zero s).
Proof. destruct s; reflexivity. Qed.

(** ** No overflow *)

Definition H54 : Z := (2 ^ 54 - 1) * 2 ^ 2045.
Lemma H54_large : 2 * 10 ^ 308 * one <= H54.
Proof. apply Z.leb_le. vm_compute. reflexivity. Qed.
Lemma H54_between : 2 * 179769 * (10 ^ 303 * one) < H54 /\ (2 ^ 53 - 1) * 2 ^ 2045 < 179770 * (10 ^ 303 * one) /\
  2 * ((2 ^ 53 - 1) * 2 ^ 2045) < 359539 * (10 ^ 303 * one).
Proof. repeat split; apply Z.ltb_lt; vm_compute; reflexivity. Qed.

Lemma no_overflow v d k : 0 <= v <= (2 ^ 53 - 1) * 2 ^ 2045 -> closest_of_six v d k -> ~ too_large 53 1024 (steps d k) (parts k).
Proof.
  intros V [S C] T. unfold too_large in T. change ((2 ^ (53 + 1) - 1) * 2 ^ (1024 - 53 - emin 53 1024)) with H54 in T.
  pose proof (steps_nonneg d k ltac:(unfold six in S; lia)) as P. rewrite Z.abs_eq in T by exact P.
  specialize (C 179769 303 ltac:(unfold six; lia)). destruct H54_between as (N1 & N2 & N3). pose proof H54_large as N0. pose proof one_pos as O.
  assert (P0 : 0 < 10 ^ 303 * one) by (apply (ten_unit 303 0); lia). unfold six in S.
  destruct (Z.le_gt_cases 303 k) as [L|L].
  - unfold steps, parts in C, T. rewrite (proj2 (Z.leb_le 0 k)) in C, T by lia. change (0 <=? 303) with true in C. cbv iota in C, T.
    replace (d * 10 ^ k * one) with (d * 10 ^ (k - 303) * (10 ^ 303 * one)) in C, T.
    2:{ replace k with (k - 303 + 303) at 2 by lia. rewrite Z.pow_add_r by lia. ring. }
    rewrite <- (Z.mul_assoc 179769) in C. set (w := d * 10 ^ (k - 303)) in *. set (Q := 10 ^ 303 * one) in *. set (top := (2 ^ 53 - 1) * 2 ^ 2045) in *.
    set (h := H54) in *. clearbody w Q top h. clear - V C T N1 N2 N3 P0. rewrite !Z.mul_1_r, ?Z.mul_1_l in *.
    assert (179769 < w) by nia. assert (179770 * Q <= w * Q) by nia. lia.
  - assert (B : 2 * steps d k < H54 * parts k).
    { unfold steps, parts. destruct (Z.leb_spec 0 k) as [K|K].
      - assert (10 ^ k <= 10 ^ 302) by (apply Z.pow_le_mono_r; lia). pose proof (ten_pos k K).
        apply Z.lt_le_trans with (2 * 10 ^ 308 * one); [|lia].
        replace (2 * 10 ^ 308 * one) with (2 * (10 ^ 6 * 10 ^ 302) * one) by (rewrite <- Z.pow_add_r by lia; reflexivity).
        assert (X : d * 10 ^ k < 10 ^ 6 * 10 ^ 302).
        { generalize dependent (10 ^ 302). generalize dependent (10 ^ k). intros t T0 u. clear - S T0. intros. nia. }
        rewrite <- !Z.mul_assoc. apply Z.mul_lt_mono_pos_l; [lia|]. rewrite !Z.mul_assoc. apply Z.mul_lt_mono_pos_r; assumption.
      - pose proof (ten_pos (- k) ltac:(lia)). assert (10 ^ 6 <= 10 ^ 308) by (apply Z.pow_le_mono_r; lia).
        apply Z.lt_le_trans with (2 * 10 ^ 308 * one).
        + assert (X : d < 10 ^ 308) by lia. rewrite <- Z.mul_assoc. apply Z.mul_lt_mono_pos_l; [lia|]. apply Z.mul_lt_mono_pos_r; assumption.
        + apply Z.le_trans with (H54 * 1); [rewrite Z.mul_1_r; exact N0|]. apply Z.mul_le_mono_nonneg_l; [|lia].
          apply Z.le_trans with (2 * 10 ^ 308 * one); [|exact N0]. apply Z.mul_nonneg_nonneg; lia. }
    lia.
Qed.

Lemma number_top x : is_number 53 1024 x -> 0 <= Z.abs (units 53 1024 x) <= (2 ^ 53 - 1) * 2 ^ 2045.
Proof.
  intros N. split; [lia|]. destruct (number_units 53 1024 ltac:(lia) ltac:(lia) x N) as (a & k & A & K & ->).
  change (1024 - 53 - emin 53 1024) with 2045 in K. assert (2 ^ k <= 2 ^ 2045) by (apply Z.pow_le_mono_r; lia).
  pose proof (pow2_pos k ltac:(lia)). set (p := 2 ^ 53) in *. set (q := 2 ^ 2045) in *. set (r := 2 ^ k) in *. clearbody p q r. nia.
Qed.

(** ** Survival *)

Lemma six_gap a i b j M : six a -> six b -> 0 <= i + M -> 0 <= j + M -> ten a i M <> ten b j M ->
  Z.min (ten a i M) (ten b j M) <= 10 ^ 6 * Z.abs (ten a i M - ten b j M).
Proof.
  assert (G : forall a i b j, six a -> six b -> 0 <= i + M -> i <= j -> ten a i M <> ten b j M ->
    ten a i M <= 10 ^ 6 * Z.abs (ten a i M - ten b j M)).
  { clear. intros a i b j A B I IJ. replace j with (i + (j - i)) by lia. rewrite ten_raise by lia.
    pose proof (ten_unit i M I) as T. unfold ten, six in *. set (t := 10 ^ (i + M) * one) in *. set (w := b * 10 ^ (j - i)). clearbody t w.
    rewrite <- Z.mul_sub_distr_r, Z.abs_mul, (Z.abs_eq t) by lia. intros N. assert (a <> w) by (intros ->; apply N; reflexivity). nia. }
  intros A B I J N. destruct (Z.le_gt_cases i j) as [L|L].
  - specialize (G a i b j A B I L N). lia.
  - specialize (G b j a i B A J ltac:(lia) ltac:(congruence)). rewrite <- Z.abs_opp. replace (- (ten a i M - ten b j M)) with (ten b j M - ten a i M) by lia. lia.
Qed.

Lemma no_tie d k M w : six d -> 0 <= M -> - k <= M -> Z.odd w = true -> 2 * ten d k M = w * 10 ^ M -> False.
Proof.
  intros S M0 MK W E. rewrite <- Z.negb_even in W. apply negb_true_iff in W. pose proof (ten_pos M M0) as TM.
  assert (EV : forall c, w <> 2 * c) by (intros c ->; rewrite Z.even_mul in W; discriminate W). unfold ten in E.
  destruct (Z.le_gt_cases 0 k) as [K|K].
  - rewrite Z.pow_add_r in E by lia. apply (EV (d * 10 ^ k * one)). apply (Z.mul_cancel_r _ _ (10 ^ M)); [lia|]. rewrite <- E. ring.
  - set (K' := - k). assert (E' : 2 * d * one = w * 10 ^ K').
    { pose proof (ten_pos (k + M) ltac:(lia)). apply (Z.mul_cancel_r _ _ (10 ^ (k + M))); [lia|].
      rewrite <- (Z.mul_assoc w), <- Z.pow_add_r by (unfold K'; lia). replace (K' + (k + M)) with M by (unfold K'; lia). rewrite <- E. ring. }
    assert (O : 2 * one = 2 ^ 1075) by reflexivity.
    assert (E2 : 2 ^ 1075 * d = w * 2 ^ K' * 5 ^ K').
    { rewrite <- O. replace (w * 2 ^ K' * 5 ^ K') with (w * (2 ^ K' * 5 ^ K')) by ring. rewrite <- Z.pow_mul_l. change (2 * 5) with 10. rewrite <- E'. ring. }
    assert (G : (5 ^ K' | d)).
    { apply (Gauss (5 ^ K') (2 ^ 1075)); [exists (w * 2 ^ K'); exact E2|].
      apply Zpow_facts.rel_prime_Zpower; try (unfold K'; lia). apply Zgcd_1_rel_prime. reflexivity. }
    destruct G as [c G]. assert (D0 : d <> 0).
    { intros ->. pose proof (ten_pos K' ltac:(unfold K'; lia)). apply (EV 0). nia. }
    pose proof (Z.pow_pos_nonneg 5 K' ltac:(lia) ltac:(unfold K'; lia)) as F. unfold six in S.
    assert (C1 : 1 <= c) by nia. assert (L : 5 ^ K' < 5 ^ 9) by (assert (5 ^ K' <= d) by nia; apply Z.le_lt_trans with d; [assumption|]; assert (10 ^ 6 < 5 ^ 9) by reflexivity; lia).
    apply Z.pow_lt_mono_r_iff in L; try lia.
    assert (E3 : w * 2 ^ K' = c * 2 ^ 1075).
    { apply (Z.mul_cancel_r _ _ (5 ^ K')); [lia|]. rewrite <- E2, G. ring. }
    apply (EV (c * 2 ^ (1075 - K' - 1))). pose proof (pow2_pos K' ltac:(unfold K'; lia)).
    apply (Z.mul_cancel_r _ _ (2 ^ K')); [lia|]. rewrite E3.
    replace (2 * (c * 2 ^ (1075 - K' - 1)) * 2 ^ K') with (c * (2 ^ 1 * 2 ^ (1075 - K' - 1) * 2 ^ K')) by (change (2 ^ 1) with 2; ring).
    rewrite <- !Z.pow_add_r by (unfold K'; lia). do 2 f_equal. lia.
Qed.

Lemma survives s l kl x d k : is_number 53 1024 x -> six l -> stands_for s l kl x ->
  closest_of_six (Z.abs (units 53 1024 x)) d k -> x = double_of_decimal s d k.
Proof.
  intros N SL ST C. set (v := Z.abs (units 53 1024 x)) in *. pose proof (number_top x N) as VB. fold v in VB.
  pose proof (no_overflow v d k VB C) as NO. clear VB. pose proof (proj1 (stands_to_even s l kl x) ST) as (SG & NT & TE).
  assert (SD : six d) by apply C. assert (D0 : 0 <= d) by (unfold six in SD; lia). assert (L0 : 0 <= l) by (unfold six in SL; lia).
  pose proof (parts_pos kl) as PL. pose proof (parts_pos k) as PK.
  assert (exists M, 0 <= M /\ - k <= M /\ - kl <= M) as (M & M0 & MK & ML) by (exists (Z.abs k + Z.abs kl); lia).
  assert (MK' : 0 <= k + M) by lia. assert (ML' : 0 <= kl + M) by lia. pose proof (ten_pos M M0) as TM.
  pose proof (steps_ten l kl M M0 ML) as EL.
  pose proof (steps_ten d k M M0 MK) as ED.
  destruct (Z.eq_dec (ten d k M) (ten l kl M)) as [EQ|NE].
  { apply (stands_double s d k x D0 NO), stands_to_even. split; [exact SG|]. split; [exact NO|].
    apply (to_even_scale 53 1024 s (steps l kl) (parts kl)); auto.
    apply (Z.mul_cancel_r _ _ (10 ^ M)); [lia|].
    replace (steps l kl * parts k * 10 ^ M) with (steps l kl * 10 ^ M * parts k) by ring.
    replace (steps d k * parts kl * 10 ^ M) with (steps d k * 10 ^ M * parts kl) by ring. rewrite EL, ED, EQ. ring. }
  assert (CL : Z.abs (ten d k M - v * 10 ^ M) <= Z.abs (ten l kl M - v * 10 ^ M)).
  { apply (closest_scaled v d k l kl M M0 MK ML). apply C, SL. }
  pose proof (proj1 (stands_double s l kl x L0 NT) ST) as XE.
  destruct l as [|p|p]; [|clear L0|lia].
  { exfalso. assert (V0 : v = 0) by (unfold v; rewrite XE; reflexivity). rewrite V0 in CL. unfold ten in CL at 2. apply NE. unfold ten at 2. lia. }
  destruct (decimal_rounds s p kl) as (g & (G0 & G1 & G2) & R & _). rewrite <- XE in R. destruct R as [_ R].
  set (A := steps (Zpos p) kl) in *. set (B := parts kl) in *. pose proof (steps_nonneg (Zpos p) kl ltac:(lia)) as PA. fold A in PA.
  pose proof (pow2_pos g G0) as PG. assert (BG : 0 < B * 2 ^ g) by (apply Z.mul_pos_pos; assumption).
  destruct (rne_spec A (B * 2 ^ g) PA BG) as (RN & _ & RD).
  assert (V : v = rne A (B * 2 ^ g) * 2 ^ g).
  { unfold v. destruct (_ <? _) in R; [|rewrite R in N; destruct N as [_ N]; discriminate N]. destruct R as [_ ->].
    assert (NN : 0 <= rne A (B * 2 ^ g) * 2 ^ g) by (apply Z.mul_nonneg_nonneg; [exact RN|apply Z.lt_le_incl, PG]).
    clear - NN. destruct s; lia. }
  assert (DV : 2 * Z.abs (v * B - A) <= B * 2 ^ g).
  { rewrite V. replace (rne A (B * 2 ^ g) * 2 ^ g * B) with (rne A (B * 2 ^ g) * (B * 2 ^ g)) by ring. exact RD. }
  (* scaled *)
  pose proof (distance_scaled v (Zpos p) kl M M0 ML) as DS. fold A B in DS, EL.
  assert (AB : Z.abs (A - v * B) = Z.abs (v * B - A)) by (rewrite <- Z.abs_opp; f_equal; lia). rewrite AB in DS.
  assert (DQ : 2 * Z.abs (ten (Zpos p) kl M - v * 10 ^ M) <= 2 ^ g * 10 ^ M).
  { apply (Z.mul_le_mono_pos_r _ _ B PL). rewrite <- Z.mul_assoc, <- DS.
    replace (2 ^ g * 10 ^ M * B) with (B * 2 ^ g * 10 ^ M) by ring. rewrite Z.mul_assoc. apply Z.mul_le_mono_nonneg_r; [lia|exact DV]. }
  pose proof (six_gap d k (Zpos p) kl M SD SL MK' ML' NE) as GAP.
  set (P := ten d k M) in *. set (Q := ten (Zpos p) kl M) in *. set (U := 10 ^ M) in *. set (W := v * U) in *.
  assert (PQ : Z.abs (P - Q) <= 2 ^ g * U) by (clear - CL DQ; lia).
  destruct (Z.eq_dec g 0) as [->|GN].
  - (* every double is a whole number of units *)
    change (2 ^ 0) with 1 in *. rewrite Z.mul_1_l in DQ.
    assert (ST2 : 2 * Z.abs (P - W) < U).
    { destruct (Z.eq_dec (2 * Z.abs (P - W)) U) as [T|T]; [|clear - T CL DQ; lia]. exfalso.
      assert (CS : 2 * P = (2 * v + 1) * U \/ 2 * P = (2 * v - 1) * U).
      { clear - T. unfold W in T. rewrite Z.mul_add_distr_r, Z.mul_sub_distr_r, Z.mul_1_l, <- Z.mul_assoc. lia. }
      destruct CS as [CS|CS]; (apply (no_tie d k M _ SD M0 MK) in CS; [exact CS|]).
      - rewrite Z.odd_add, Z.odd_mul. reflexivity.
      - rewrite Z.odd_sub, Z.odd_mul. reflexivity. }
    set (y := double_of_decimal s d k). pose proof (proj1 (stands_to_even s d k y) (proj2 (stands_double s d k y D0 NO) eq_refl)) as (SY & _ & (NY & CY) & _).
    apply (units_inj 53 1024 ltac:(lia)); [exact N|exact NY|congruence|].
    specialize (CY x N). pose proof (distance_scaled v d k M M0 MK) as DK. fold P U W in DK.
    assert (LT : 2 * Z.abs (steps d k - v * parts k) < parts k).
    { apply (Z.mul_lt_mono_pos_r U); [exact TM|]. rewrite <- Z.mul_assoc, DK, Z.mul_assoc, (Z.mul_comm (parts k)). apply Z.mul_lt_mono_pos_r; assumption. }
    assert (SX : units 53 1024 x = sign s * v).
    { unfold v. destruct (_ <? _) in R; [|rewrite R in N; destruct N as [_ N']; discriminate N']. destruct R as [_ ->]. rewrite Z.mul_1_r.
      generalize dependent (rne A (B * 1)). clear. intros r. intros. destruct s; cbn [sign]; lia. }
    rewrite SX in *. set (B' := parts k) in *. set (A' := steps d k) in *. set (u := units 53 1024 y) in *.
    assert (X1 : Z.abs (sign s * v * B' - sign s * A') = Z.abs (A' - v * B')) by (clear; destruct s; cbn [sign]; lia).
    rewrite X1 in CY. assert (X2 : 2 * Z.abs (u * B' - sign s * v * B') < 2 * B').
    { assert (Z.abs (u * B' - sign s * v * B') <= Z.abs (u * B' - sign s * A') + Z.abs (A' - v * B')) by (clear; destruct s; cbn [sign]; lia). clear - H CY LT. lia. }
    rewrite <- Z.mul_sub_distr_r, Z.abs_mul, (Z.abs_eq B') in X2 by (apply Z.lt_le_incl, PK). assert (X3 : Z.abs (u - sign s * v) < 1) by (clear - X2 PK; nia). clear - X3. lia.
  - exfalso. specialize (G2 ltac:(lia)). replace (g + 53 - 1) with (52 + g) in G2 by lia. rewrite Z.pow_add_r in G2 by lia.
    assert (LQ : 2 ^ 52 * (2 ^ g * U) <= Q).
    { apply (Z.mul_le_mono_pos_r _ _ B PL). rewrite <- EL.
      replace (2 ^ 52 * (2 ^ g * U) * B) with (B * (2 ^ 52 * 2 ^ g) * U) by ring. apply Z.mul_le_mono_nonneg_r; [lia|exact G2]. }
    assert (0 < 2 ^ g * U) by (apply Z.mul_pos_pos; assumption).
    set (h := 2 ^ g * U) in *. clearbody h. change (2 ^ 52) with 4503599627370496 in LQ. change (10 ^ 6) with 1000000 in GAP. clear - GAP PQ LQ H. lia.
Qed.
