(** * Proofs about the mathematical functions *)
From Coq Require Import ZArith Lia Bool List SpecFloat.
From Verif Require Import IntsModel FloatModel IeeeSpec FloatSpec IeeeProofs FloatProofs MathModel MathSpec.
Open Scope Z_scope.

(** ** The square root *)
Section Sqrt.
Variables (prec emax : Z).
Hypothesis Hprec : 1 < prec.
Hypothesis Hmax : prec < emax.
Local Notation emin := (emin prec emax).
Local Notation fexp := (fexp prec emax).
Local Notation units := (units prec emax).

(** A fraction that cannot be told from the root of [m] by comparing it with multiples of [1 / K] *)
Definition root_of (m K : Z) : Z := 2 * Z.sqrt (m * (K * K)) + (if Z.sqrt (m * (K * K)) * Z.sqrt (m * (K * K)) =? m * (K * K) then 0 else 1).

Lemma root_compare m K j : 0 <= m -> 0 <= j -> (2 * j ?= root_of m K) = (j * j ?= m * (K * K)).
Proof.
  intros Hm Hj. unfold root_of. set (n := m * (K * K)). assert (Hn : 0 <= n) by (unfold n; nia).
  destruct (Z.sqrt_spec n Hn) as [S1 S2]. assert (S0 := Z.sqrt_nonneg n). set (t := Z.sqrt n) in *.
  destruct (Z.eqb_spec (t * t) n) as [E|E]; destruct (Z.compare_spec (j * j) n) as [C|C|C].
  - apply Z.compare_eq_iff. nia.
  - apply Z.compare_lt_iff. nia.
  - apply Z.compare_gt_iff. nia.
  - exfalso. assert (j = t \/ j < t \/ t < j) as [|[|]] by lia; nia.
  - apply Z.compare_lt_iff. assert (j <= t) by nia. lia.
  - apply Z.compare_gt_iff. assert (t < j) by nia. lia.
Qed.

Theorem SFsqrt_spec m e : is_float prec emax (S754_finite false m e) ->
  let x := S754_finite false m e in
  let r := SFsqrt prec emax x in
  is_number prec emax r /\ 0 <= units r /\
  forall w, is_number prec emax w -> 0 <= units w ->
    (units w < units r -> (units r + units w) * (units r + units w) <= 4 * (units x * unit prec emax)) /\
    (units r < units w -> 4 * (units x * unit prec emax) <= (units r + units w) * (units r + units w)).
Proof.
  intros F x r. destruct (emin_neg _ _ Hprec Hmax) as [En1 En2].
  assert (Ex := finite_exponent prec emax _ _ _ F).
  unfold r. cbn [SFsqrt x]. unfold SFsqrt_core_binary.
  set (d := Zdigits2 (Z.pos m)). set (h := Z.div2 (d + e + 1)). set (e' := Z.min (fexp h) (Z.div2 e)).
  assert (De : 2 * Z.div2 e <= e) by (rewrite Z.div2_div; pose proof (Z.div_mod e 2 ltac:(lia)); pose proof (Z.mod_pos_bound e 2 ltac:(lia)); lia).
  assert (De' : emin <= Z.div2 e) by (rewrite Z.div2_div; apply Z.div_le_lower_bound; lia).
  assert (Fh : fexp h = Z.max (h - prec) emin) by reflexivity.
  assert (He' : emin <= e') by (unfold e'; lia).
  set (s := e - 2 * e'). assert (Hs : 0 <= s) by (unfold s, e'; lia).
  assert (M : match s with 0 => Z.pos m | Z.pos _ => Z.shiftl (Z.pos m) s | Z.neg _ => 0 end = Z.pos m * 2 ^ s).
  { destruct s as [|p|p] eqn:Es; [lia| |lia]. rewrite Z.shiftl_mul_pow2 by lia. reflexivity. }
  rewrite M. clear M. set (M := Z.pos m * 2 ^ s). assert (Ps := pow2_pos s Hs). assert (HM : 0 < M) by (unfold M; nia).
  destruct (Z.sqrtrem M) as [q rem] eqn:SR. pose proof (Z.sqrtrem_spec M ltac:(lia)) as Q. rewrite SR in Q. destruct Q as [Q1 Q2].
  assert (Hq : 0 <= q) by (assert (q = Z.sqrt M) as -> by (pose proof (Z.sqrtrem_sqrt M); rewrite SR in *; auto); apply Z.sqrt_nonneg).
  set (g := e' - emin). assert (Hg : 0 <= g) by (unfold g; lia). assert (Pg := pow2_pos g Hg).
  set (K := 2 * 2 ^ g). set (N := root_of M K). set (D := 2 * K).
  assert (HK : 0 < K) by (unfold K; lia).
  assert (C : forall j, 0 <= j -> (2 * j ?= N) = (j * j ?= M * (K * K))) by (intros; apply root_compare; lia).
  assert (HN : 0 <= N) by (unfold N, root_of; pose proof (Z.sqrt_nonneg (M * (K * K))); destruct (_ =? _); lia).
  assert (LB : q * D <= N).
  { pose proof (C (q * K) ltac:(nia)) as X. replace (2 * (q * K)) with (q * D) in X by (unfold D; ring).
    rewrite <- Z.compare_le_iff, X, Z.compare_le_iff. assert (q * q <= M) by nia. replace (q * K * (q * K)) with (q * q * (K * K)) by ring. apply Z.mul_le_mono_nonneg_r; [nia|auto]. }
  assert (UB : N < (q + 1) * D).
  { pose proof (C ((q + 1) * K) ltac:(nia)) as X. replace (2 * ((q + 1) * K)) with ((q + 1) * D) in X by (unfold D; ring).
    apply Z.compare_gt_iff. rewrite X. apply Z.compare_gt_iff. assert (M < (q + 1) * (q + 1)) by nia. replace ((q + 1) * K * ((q + 1) * K)) with ((q + 1) * (q + 1) * (K * K)) by ring. apply Z.mul_lt_mono_pos_r; [nia|auto]. }
  assert (HD : 0 < D) by (unfold D; lia).
  assert (ND : N / D = q) by (symmetry; apply (Z.div_unique N D q (N - q * D)); [left; lia|ring]).
  assert (NM : N mod D = N - q * D) by (pose proof (Z.div_mod N D ltac:(lia)); rewrite ND in *; lia).
  assert (L : (if Zeq_bool rem 0 then loc_Exact else loc_Inexact (if rem <=? q then Lt else Gt)) = loc_of N D).
  { unfold loc_of. rewrite NM. pose proof (C (q * K) ltac:(nia)) as X.
    replace (2 * (q * K)) with (q * D) in X by (unfold D; ring).
    destruct (Zeq_bool rem 0) eqn:R0.
    - apply Zeq_bool_eq in R0. subst rem. rewrite Z.add_0_r in Q1.
      replace (q * K * (q * K)) with (M * (K * K)) in X by (rewrite Q1; ring). rewrite Z.compare_refl in X. apply Z.compare_eq_iff in X.
      rewrite X. rewrite Z.sub_diag. reflexivity.
    - assert (rem <> 0) by (intros ->; discriminate R0).
      destruct (Z.eqb_spec (N - q * D) 0) as [E|E].
      + exfalso. assert (q * D = N) as E' by lia. apply Z.compare_eq_iff in E'. rewrite E' in X. symmetry in X. apply Z.compare_eq_iff in X. nia.
      + f_equal. pose proof (C ((2 * q + 1) * 2 ^ g) ltac:(nia)) as Y.
        assert (CC : (2 * (N - q * D) ?= D) = CompOpp (2 * ((2 * q + 1) * 2 ^ g) ?= N)).
        { rewrite <- Z.compare_antisym. unfold D, K.
          destruct (Z.compare_spec N (2 * ((2 * q + 1) * 2 ^ g))); [apply Z.compare_eq_iff|apply Z.compare_lt_iff|apply Z.compare_gt_iff]; lia. }
        rewrite CC, Y. rewrite Q1. unfold K.
        assert (0 < 2 ^ g * 2 ^ g) by nia.
        replace ((2 * q + 1) * 2 ^ g * ((2 * q + 1) * 2 ^ g)) with ((4 * (q * q) + 4 * q + 1) * (2 ^ g * 2 ^ g)) by ring.
        replace ((q * q + rem) * (2 * 2 ^ g * (2 * 2 ^ g))) with ((4 * (q * q) + 4 * rem) * (2 ^ g * 2 ^ g)) by ring.
        destruct (Z.leb_spec rem q).
        * replace (_ ?= _) with Gt; auto. symmetry. apply Z.compare_gt_iff. apply Z.mul_lt_mono_pos_r; lia.
        * replace (_ ?= _) with Lt; auto. symmetry. apply Z.compare_lt_iff. apply Z.mul_lt_mono_pos_r; lia. }
  rewrite L, <- ND.
  assert (Sq : M * (K * K) = 4 * (units x * unit prec emax)).
  { unfold M, K, x, unit. cbn [IeeeSpec.units]. 
    replace (Z.pos m * 2 ^ s * (2 * 2 ^ g * (2 * 2 ^ g))) with (4 * (Z.pos m * (2 ^ s * 2 ^ g * 2 ^ g))) by ring.
    replace (4 * (1 * (Z.pos m * 2 ^ (e - emin)) * 2 ^ (- emin))) with (4 * (Z.pos m * (2 ^ (e - emin) * 2 ^ (- emin)))) by ring.
    do 2 f_equal. rewrite <- !Z.pow_add_r by lia. f_equal. unfold s, g. lia. }
  assert (RA : rounded prec emax false (N * 2 ^ g) D (binary_round_aux prec emax false (N / D) e' (loc_of N D))).
  { apply rounded_aux; auto; try (clear - HN Pg; nia).
    - (* the exponent *)
      rewrite ND. destruct (digits_nonneg (Zpos m) ltac:(lia)) as (_ & _ & _ & A). destruct (A ltac:(lia)) as [A1 A2]. fold d in A1, A2.
      destruct (digits_nonneg q Hq) as (B0 & _ & B2 & _).
      assert (h <= Zdigits2 q + e').
      { assert (H2 : 2 * h <= d + e + 1) by (unfold h; rewrite Z.div2_div; pose proof (Z.div_mod (d + e + 1) 2 ltac:(lia)); pose proof (Z.mod_pos_bound (d + e + 1) 2 ltac:(lia)); lia).
        destruct (Z.le_gt_cases (h - e') 0) as [G|G]; [lia|].
        assert (2 ^ (h - e' - 1) <= q).
        { apply Z.nlt_ge. intros Y. assert (q + 1 <= 2 ^ (h - e' - 1)) by lia.
          assert (M < 2 ^ (h - e' - 1) * 2 ^ (h - e' - 1)) by (clear - H Hq Q1 Q2; nia).
          rewrite <- Z.pow_add_r in H0 by lia.
          assert (2 ^ (d - 1 + s) <= M) by (unfold M; rewrite Z.pow_add_r by lia; apply Z.mul_le_mono_nonneg_r; lia).
          assert (2 ^ (h - e' - 1 + (h - e' - 1)) <= 2 ^ (d - 1 + s)) by (apply Z.pow_le_mono_r; unfold s; lia). lia. }
        assert (h - e' - 1 < Zdigits2 q) by (apply (Z.pow_lt_mono_r_iff 2); lia). lia. }
      unfold SpecFloat.fexp in *. unfold e' in *. lia.
    - replace (Z.max 0 (e' - emin)) with g by (unfold g; lia). replace (Z.max 0 (emin - e')) with 0 by lia. ring. }
  set (rr := binary_round_aux prec emax false (N / D) e' (loc_of N D)) in *.
  assert (K2 : forall j, 0 <= j -> (j * D <= 2 * (N * 2 ^ g) <-> j * j <= 4 * (units x * unit prec emax)) /\ (2 * (N * 2 ^ g) <= j * D <-> 4 * (units x * unit prec emax) <= j * j)).
  { intros j Hj. rewrite <- Sq. pose proof (C j Hj) as X. unfold D, K in *.
    assert (T : forall a b c d : Z, (a ?= b) = (c ?= d) -> (a <= b <-> c <= d) /\ (b <= a <-> d <= c)).
    { intros a b c d0 E. rewrite <- !Z.compare_le_iff, (Z.compare_antisym a b), (Z.compare_antisym c d0), E. split; reflexivity. }
    destruct (T _ _ _ _ X) as [T1 T2]. rewrite <- T1, <- T2. clear - Pg. set (P := 2 ^ g) in *. split; split; intros; nia. }
  assert (NT : ~ too_large prec emax (N * 2 ^ g) D).
  { intros T. unfold too_large in T. rewrite Z.abs_eq in T by nia.
    assert (Pp := pow2_pos (prec) ltac:(lia)). assert (Pe := pow2_pos (emax - prec - emin) ltac:(lia)).
    assert (P2 : 2 ^ (prec + 1) = 2 * 2 ^ prec) by (rewrite <- Z.pow_succ_r by lia; f_equal; lia).
    assert (T' : 2 ^ (emax - emin) * D <= 2 * (N * 2 ^ g)).
    { replace (emax - emin) with (prec + (emax - prec - emin)) by lia. rewrite Z.pow_add_r by lia.
      apply Z.le_trans with (D * ((2 ^ (prec + 1) - 1) * 2 ^ (emax - prec - emin))); auto.
      rewrite Z.mul_comm. apply Z.mul_le_mono_nonneg_l; [lia|]. apply Z.mul_le_mono_nonneg_r; lia. }
    apply K2 in T'; [|apply Z.lt_le_incl, pow2_pos; lia].
    assert (U := number_below prec emax Hprec Hmax x (conj F eq_refl)).
    assert (U' : units x < 2 ^ (emax - emin)) by lia.
    assert (units x * unit prec emax < 2 ^ (emax - emin) * unit prec emax) by (apply Z.mul_lt_mono_pos_r; [apply pow2_pos; lia|auto]).
    unfold unit in *. rewrite <- Z.pow_add_r in * by lia.
    assert (4 * 2 ^ (emax - emin + - emin) <= 2 ^ (emax - emin + (emax - emin))).
    { change 4 with (2 ^ 2). rewrite <- Z.pow_add_r by lia. apply Z.pow_le_mono_r; lia. }
    lia. }
  destruct RA as [RF [[RT _]|[_ [RC1 RC2]]]]; [contradiction|].
  rewrite Z.mul_1_l in RC2. split; auto.
  assert (R0 : 0 <= units rr).
  { pose proof (RC2 (S754_zero false) ltac:(split; reflexivity)) as Z0. cbn [IeeeSpec.units] in Z0.
    destruct (opp_number prec emax rr RC1) as [O1 O2]. pose proof (RC2 _ O1) as Z1. rewrite O2 in Z1.
    destruct (Z.le_gt_cases 0 (units rr)); auto. exfalso. assert (0 < - units rr * D) by (apply Z.mul_pos_pos; lia). assert (0 <= N * 2 ^ g) by (apply Z.mul_nonneg_nonneg; lia). lia. }
  split; auto. intros w W W0. pose proof (RC2 w W) as R2.
  destruct (K2 (units rr + units w) ltac:(lia)) as [T1 T2]. rewrite <- T1, <- T2.
  split; intros Y.
  - assert (units w * D < units rr * D) by (apply Z.mul_lt_mono_pos_r; auto). lia.
  - assert (units rr * D < units w * D) by (apply Z.mul_lt_mono_pos_r; auto). lia.
Qed.
End Sqrt.

Lemma zero_number f s : is_number (fprec f) (femax f) (S754_zero s).
Proof. split; reflexivity. Qed.
Lemma finite_number f x : is_float (fprec f) (femax f) x -> is_finite x = true -> is_number (fprec f) (femax f) x.
Proof. split; auto. Qed.
Lemma fvalue_sign f x : (0 <= fvalue f x <-> 0 <= units (fprec f) (femax f) x) /\ (fvalue f x < 0 <-> units (fprec f) (femax f) x < 0) /\
  (fvalue f x = 0 <-> units (fprec f) (femax f) x = 0).
Proof. unfold fvalue. pose proof (step_pos f). repeat split; nia. Qed.
Lemma fvalue_le f x y : fvalue f x <= fvalue f y <-> units (fprec f) (femax f) x <= units (fprec f) (femax f) y.
Proof. unfold fvalue. pose proof (step_pos f). split; nia. Qed.
Lemma fvalue_lt f x y : fvalue f x < fvalue f y <-> units (fprec f) (femax f) x < units (fprec f) (femax f) y.
Proof. unfold fvalue. pose proof (step_pos f). split; nia. Qed.

Lemma leb_number f x y : is_number (fprec f) (femax f) x -> is_number (fprec f) (femax f) y ->
  SFleb x y = true <-> fvalue f x <= fvalue f y.
Proof.
  intros X Y. unfold SFleb. rewrite (SFcompare_spec _ _ (fprec_gt f) (fprec_lt f) x y X Y), fvalue_le.
  destruct (Z.compare_spec (units (fprec f) (femax f) x) (units (fprec f) (femax f) y)); split; intros; try reflexivity; try discriminate; lia.
Qed.
Lemma ltb_number f x y : is_number (fprec f) (femax f) x -> is_number (fprec f) (femax f) y ->
  SFltb x y = true <-> fvalue f x < fvalue f y.
Proof.
  intros X Y. unfold SFltb. rewrite (SFcompare_spec _ _ (fprec_gt f) (fprec_lt f) x y X Y), fvalue_lt.
  destruct (Z.compare_spec (units (fprec f) (femax f) x) (units (fprec f) (femax f) y)); split; intros; try reflexivity; try discriminate; lia.
Qed.
Lemma eqb_number f x y : is_number (fprec f) (femax f) x -> is_number (fprec f) (femax f) y ->
  SFeqb x y = true <-> fvalue f x = fvalue f y.
Proof.
  intros X Y. unfold SFeqb. rewrite (SFcompare_spec _ _ (fprec_gt f) (fprec_lt f) x y X Y).
  unfold fvalue. pose proof (step_pos f).
  destruct (Z.compare_spec (units (fprec f) (femax f) x) (units (fprec f) (femax f) y)); split; intros; try reflexivity; try discriminate; nia.
Qed.

Lemma zero_fvalue f : fvalue f fzero = 0.
Proof. reflexivity. Qed.

Lemma not_negative_spec f x : is_float (fprec f) (femax f) x -> not_negative x = true <-> at_least_zero f x.
Proof.
  intros F. unfold not_negative, at_least_zero. destruct x as [s|[]| |s m e].
  - split; [right|]; split; auto. rewrite (proj2 (proj2 (proj2 (fvalue_sign f (S754_zero s))))) by reflexivity. lia.
  - split; [discriminate|]. intros [H|[H _]]; discriminate.
  - split; auto.
  - split; [discriminate|]. intros [H|[H _]]; discriminate.
  - rewrite (leb_number f _ _ (zero_number f _) (finite_number f _ F eq_refl)), zero_fvalue. split; auto. intros [H|[_ H]]; [discriminate|auto].
Qed.

Lemma fone_fvalue f : is_number (fprec f) (femax f) (fone f) /\ fvalue f (fone f) = one /\
  is_number (fprec f) (femax f) (fminus_one f) /\ fvalue f (fminus_one f) = - one.
Proof. destruct f; repeat split; vm_compute; reflexivity. Qed.

Lemma fone_is f : fone f = match f with Single => S754_finite false 8388608 (-23) | Double => S754_finite false 4503599627370496 (-52) end.
Proof. destruct f; vm_compute; reflexivity. Qed.
Lemma fminus_one_is f : fminus_one f = match f with Single => S754_finite true 8388608 (-23) | Double => S754_finite true 4503599627370496 (-52) end.
Proof. destruct f; vm_compute; reflexivity. Qed.
Global Opaque fone fminus_one.

Lemma within_one_spec f x : is_float (fprec f) (femax f) x -> within_one f x = true <-> at_most_one f x.
Proof.
  intros F. unfold within_one, at_most_one. rewrite andb_true_iff. destruct (fone_fvalue f) as (O1 & O2 & O3 & O4).
  destruct (is_finite x) eqn:N.
  - rewrite (leb_number f _ _ O3 (finite_number f _ F N)), (leb_number f _ _ (finite_number f _ F N) O1), O2, O4. pose proof one_pos. lia.
  - assert (H : SFleb (fminus_one f) x = true -> SFleb x (fone f) = true -> False).
    { rewrite fminus_one_is, fone_is. destruct f, x as [s|[]| |s m e]; try discriminate N; cbn; discriminate. }
    split; [intros [? ?]; exfalso; auto|intros [? ?]; discriminate].
Qed.

Lemma isfinite_is x : isfinite x = is_finite x.
Proof. reflexivity. Qed.

(** ** Multiples of a half pi *)
Lemma half_pi_number f : is_number (fprec f) (femax f) (half_pi f) /\ 0 < units (fprec f) (femax f) (half_pi f).
Proof. destruct f; repeat split; vm_compute; reflexivity. Qed.

Lemma units_multiple f x n : fvalue f x = n * fvalue f (half_pi f) <-> units (fprec f) (femax f) x = n * units (fprec f) (femax f) (half_pi f).
Proof.
  unfold fvalue. rewrite Z.mul_assoc. pose proof (step_pos f). split; intros H0.
  - apply Z.mul_reg_r in H0; auto. lia.
  - rewrite H0. reflexivity.
Qed.

Lemma remainder_spec f x : remainder_is_zero f x = true <-> exists n, fvalue f x = n * fvalue f (half_pi f).
Proof.
  unfold remainder_is_zero. destruct (half_pi_number f) as [_ P]. split.
  - intros H. apply Z.eqb_eq in H. apply Z.mod_divide in H; [|lia]. destruct H as [n H]. exists n. apply units_multiple; auto.
  - intros [n H]. apply units_multiple in H. rewrite H. apply Z.eqb_eq, Z.mod_mul. lia.
Qed.

(** A whole number times [half_pi] that is a number, divided by [half_pi], gives the whole number,
    if that is one itself. *)
Lemma whole_number f n x : is_number (fprec f) (femax f) x -> units (fprec f) (femax f) x = n * units (fprec f) (femax f) (half_pi f) ->
  exists w, is_number (fprec f) (femax f) w /\ units (fprec f) (femax f) w = n * unit (fprec f) (femax f).
Proof.
  intros X E. destruct (number_units _ _ (fprec_gt f) (fprec_lt f) x X) as (a & k & Ha & Hk & U).
  assert (EM := emin_neg _ _ (fprec_gt f) (fprec_lt f)).
  (* half_pi = o * 2 ^ j units with an odd o > 1 *)
  assert (exists o j, Z.odd o = true /\ 1 < o /\ 0 <= j /\ - emin (fprec f) (femax f) < j + fprec f /\ units (fprec f) (femax f) (half_pi f) = o * 2 ^ j) as (o & j & Ho & Ho1 & Hj & Hj2 & Eo).
  { destruct f; [exists 13176795, 126|exists 884279719003555, 1025]; vm_compute; intuition discriminate. }
  (* n = b * 2 ^ i with an odd b *)
  destruct (Z.eq_dec n 0) as [->|Nn]. { exists (S754_zero false). split; [apply zero_number|reflexivity]. }
  assert (P : forall m : positive, exists b i, Z.odd b = true /\ 0 <= i /\ 0 < b /\ Zpos m = b * 2 ^ i).
  { induction m as [m IH|m IH|].
    - exists (Zpos m~1), 0. repeat split; try lia.
    - destruct IH as (b & i & B1 & B2 & B3 & B4). exists b, (i + 1). rewrite Z.pow_add_r by lia. repeat split; auto; try lia.
    - exists 1, 0. repeat split; lia. }
  assert (exists b i, Z.odd b = true /\ 0 <= i /\ 0 < b /\ Z.abs n = b * 2 ^ i) as (b & i & Hb & Hi & Hb0 & En).
  { destruct n as [|m|m]; try lia; destruct (P m) as (b & i & Q); exists b, i; auto. }
  assert (Q : a * 2 ^ k = b * o * 2 ^ (i + j)).
  { rewrite <- U, E, Z.abs_mul, En, Eo, (Z.abs_eq (o * 2 ^ j)) by (pose proof (pow2_pos j Hj); nia). rewrite Z.pow_add_r by lia. ring. }
  assert (Kle : k <= i + j).
  { apply Z.nlt_ge. intros L. replace k with (k - (i + j) - 1 + 1 + (i + j)) in Q by lia.
    rewrite !Z.pow_add_r, !Z.mul_assoc in Q by lia. 
    apply Z.mul_reg_r in Q; [|pose proof (pow2_pos j ltac:(lia)); lia]. apply Z.mul_reg_r in Q; [|pose proof (pow2_pos i ltac:(lia)); lia].
    assert (O : Z.odd (b * o) = true) by (rewrite Z.odd_mul, Hb, Ho; auto). rewrite <- Q, Z.odd_mul in O. change (Z.odd (2 ^ 1)) with false in O. rewrite andb_false_r in O. discriminate. }
  assert (Qb : b * o * 2 ^ (i + j - k) = a).
  { replace (i + j) with (i + j - k + k) in Q by lia. rewrite Z.pow_add_r, Z.mul_assoc in Q by lia. apply Z.mul_reg_r in Q; auto. pose proof (pow2_pos k ltac:(lia)); lia. }
  assert (Pk := pow2_pos (i + j - k) ltac:(lia)).
  assert (Hu : unit (fprec f) (femax f) < units (fprec f) (femax f) (half_pi f)) by (destruct f; vm_compute; reflexivity).
  assert (Pu : 0 < unit (fprec f) (femax f)) by (apply pow2_pos; lia).
  assert (NB : Z.abs n < 2 ^ femax f).
  { pose proof (number_below _ _ (fprec_gt f) (fprec_lt f) x X) as B. rewrite E, Z.abs_mul in B.
    rewrite (Z.abs_eq (units _ _ _)) in B by lia. replace (femax f - emin (fprec f) (femax f)) with (femax f + - emin (fprec f) (femax f)) in B by lia.
    rewrite Z.pow_add_r in B by (pose proof (fprec_gt f); pose proof (fprec_lt f); lia). fold (unit (fprec f) (femax f)) in B. 
    apply (Z.mul_lt_mono_pos_r (unit (fprec f) (femax f))); auto.
    apply Z.le_lt_trans with (Z.abs n * units (fprec f) (femax f) (half_pi f)); auto. apply Z.mul_le_mono_nonneg_l; lia. }
  pose proof (fprec_gt f) as FP. pose proof (fprec_lt f) as FL.
  set (c := Z.max 0 (i - (femax f - fprec f))). assert (Hc : 0 <= c <= i) by (unfold c; lia).
  destruct (representable_signed _ _ (fprec_gt f) (fprec_lt f) (n * unit (fprec f) (femax f)) (b * 2 ^ c) (i - c + - emin (fprec f) (femax f))) as (w & W1 & W2).
  - split; [apply Z.mul_nonneg_nonneg; [lia|apply Z.lt_le_incl, pow2_pos; lia]|].
    destruct (Z.le_gt_cases (i - (femax f - fprec f)) 0) as [L|L].
    + replace c with 0 by (unfold c; lia). rewrite Z.mul_1_r. apply Z.le_lt_trans with a; [|lia]. rewrite <- Qb. rewrite <- (Z.mul_1_r b) at 1. rewrite <- Z.mul_assoc. apply Z.mul_le_mono_nonneg_l; [lia|]. clear - Ho1 Pk. nia.
    + rewrite En in NB. replace i with (c + (femax f - fprec f)) in NB by (unfold c; lia).
      replace (femax f) with (fprec f + (femax f - fprec f)) in NB at 2 by lia. rewrite (Z.pow_add_r 2 c), (Z.pow_add_r 2 (fprec f)), Z.mul_assoc in NB by lia.
      apply Z.mul_lt_mono_pos_r in NB; auto. apply pow2_pos. lia.
  - unfold c. lia.
  - rewrite Z.abs_mul, En. unfold unit. rewrite (Z.abs_eq (2 ^ (- _))) by (apply Z.lt_le_incl, pow2_pos; lia).
    rewrite <- !Z.mul_assoc. f_equal. rewrite <- !Z.pow_add_r by lia. f_equal. lia.
  - exists w. split; auto.
Qed.

Lemma quotient_spec f n x : is_number (fprec f) (femax f) x -> units (fprec f) (femax f) x = n * units (fprec f) (femax f) (half_pi f) ->
  to_int f S64 (SFdiv (fprec f) (femax f) x (half_pi f)) = (if (imin S64 <=? n) && (n <=? imax S64) then Some n else None).
Proof.
  intros X E. destruct (half_pi_number f) as [HP Pos]. destruct (whole_number f n x X E) as (w & W1 & W2).
  assert (EM := emin_neg _ _ (fprec_gt f) (fprec_lt f)).
  assert (Pu : 0 < unit (fprec f) (femax f)) by (apply pow2_pos; lia).
  pose proof (SFdiv_spec _ _ (fprec_gt f) (fprec_lt f) x (half_pi f) X HP ltac:(lia)) as D.
  rewrite Z.sgn_pos, (Z.abs_eq (units _ _ (half_pi f))), Z.mul_1_l, E in D by lia.
  destruct (rounding_exact _ _ (fprec_gt f) (fprec_lt f) _ _ _ w Pos D W1) as [[_ R1] R2]. { rewrite W2. ring. }
  unfold to_int, truncated. rewrite isfinite_is, R1, R2, W2, Z.quot_mul by lia. reflexivity.
Qed.

Lemma tan_domain_spec f x : is_float (fprec f) (femax f) x ->
  (is_finite x = false -> tan_domain f x = Some false) /\
  (is_finite x = true -> ~ (exists n, fvalue f x = n * fvalue f (half_pi f)) -> tan_domain f x = Some true) /\
  (forall n, is_finite x = true -> fvalue f x = n * fvalue f (half_pi f) ->
    tan_domain f x = if (- 2 ^ 63 <=? n) && (n <? 2 ^ 63) then Some (Z.even n) else None).
Proof.
  intros F. unfold tan_domain. change (isfinite x) with (is_finite x). split; [intros ->; reflexivity|]. split.
  - intros -> H. destruct (remainder_is_zero f x) eqn:R; auto. exfalso. apply H, remainder_spec; auto.
  - intros n N H. rewrite N. cbn [negb]. rewrite (proj2 (remainder_spec f x)) by eauto. cbn [negb].
    apply units_multiple in H. rewrite (quotient_spec f n x (conj F N) H).
    change (imin S64) with (- 2 ^ 63). replace (n <=? imax S64) with (n <? 2 ^ 63).
    2:{ change (imax S64) with (2 ^ 63 - 1). destruct (Z.ltb_spec n (2 ^ 63)), (Z.leb_spec n (2 ^ 63 - 1)); auto; lia. }
    destruct (_ && _); auto. f_equal. destruct (Z.even n) eqn:Ev.
    + apply Z.even_spec in Ev. destruct Ev as [k ->]. apply Z.eqb_eq. rewrite Z.mul_comm. apply Z.rem_mul. lia.
    + apply Z.eqb_neq. intros R. apply Z.rem_divide in R; [|lia]. destruct R as [k ->]. rewrite Z.even_mul, orb_true_r in Ev. discriminate.
Qed.

(** Odd multiples of [half_pi] need more bits than it has, so there are few. *)
Lemma odd_multiples f x n : is_number (fprec f) (femax f) x -> fvalue f x = n * fvalue f (half_pi f) -> Z.odd n = true ->
  Z.abs n <= match f with Single => 1 | Double => 9 end.
Proof.
  intros X E O. apply units_multiple in E. destruct (number_units _ _ (fprec_gt f) (fprec_lt f) x X) as (a & k & Ha & Hk & U).
  rewrite E, Z.abs_mul in U.
  assert (O' : Z.odd (Z.abs n) = true) by (destruct n; auto).
  assert (K : forall o j, Z.odd o = true -> 0 < o -> 0 <= j -> Z.abs n * (o * 2 ^ j) = a * 2 ^ k -> Z.abs n * o < 2 ^ fprec f).
  { intros o j Ho Ho0 Hj Q. assert (Kle : k <= j).
    { apply Z.nlt_ge. intros L. replace k with (k - j - 1 + 1 + j) in Q by lia.
      rewrite !Z.pow_add_r, !Z.mul_assoc in Q by lia. apply Z.mul_reg_r in Q; [|pose proof (pow2_pos j ltac:(lia)); lia].
      assert (OO : Z.odd (Z.abs n * o) = true) by (rewrite Z.odd_mul, O', Ho; auto). rewrite Q, Z.odd_mul in OO. change (Z.odd (2 ^ 1)) with false in OO. rewrite andb_false_r in OO. discriminate. }
    replace j with (j - k + k) in Q by lia. rewrite Z.pow_add_r, !Z.mul_assoc in Q by lia. apply Z.mul_reg_r in Q; [|pose proof (pow2_pos k ltac:(lia)); lia].
    apply Z.le_lt_trans with a; [|lia]. rewrite <- Q. pose proof (pow2_pos (j - k) ltac:(lia)). clear - H Ho0. assert (0 <= Z.abs n * o) by nia. nia. }
  destruct f.
  - specialize (K 13176795 126 eq_refl ltac:(lia) ltac:(lia)). cbn [fprec femax] in *.
    replace (Z.abs (units 24 128 (half_pi Single))) with (13176795 * 2 ^ 126) in U by (vm_compute; reflexivity).
    specialize (K U). change (2 ^ 24) with 16777216 in K. lia.
  - specialize (K 884279719003555 1025 eq_refl ltac:(lia) ltac:(lia)). cbn [fprec femax] in *.
    replace (Z.abs (units 53 1024 (half_pi Double))) with (884279719003555 * 2 ^ 1025) in U by (vm_compute; reflexivity).
    specialize (K U). change (2 ^ 53) with 9007199254740992 in K.
    assert (Z.abs n <> 10) by (intros T; rewrite T in O'; discriminate). lia.
Qed.

(** ** Fractions *)
Lemma has_fraction_spec f x : is_float (fprec f) (femax f) x -> is_finite x = true ->
  has_fraction f x = false <-> whole f x.
Proof.
  intros F N. unfold whole. rewrite N.
  assert (E : has_fraction f x = negb (units (fprec f) (femax f) x mod unit (fprec f) (femax f) =? 0)).
  { destruct x as [s|s| |s m e]; try discriminate N; reflexivity. }
  rewrite E, negb_false_iff, Z.eqb_eq.
  assert (EM := emin_neg _ _ (fprec_gt f) (fprec_lt f)).
  assert (Pu : 0 < unit (fprec f) (femax f)) by (apply pow2_pos; lia). pose proof (step_pos f).
  rewrite Z.mod_divide by lia. unfold fvalue. rewrite <- (unit_step f). split.
  - intros [n H0]. split; auto. exists n. rewrite H0. ring.
  - intros [_ [n H0]]. exists n. rewrite Z.mul_assoc in H0. apply Z.mul_reg_r in H0; auto. lia.
Qed.

(** ** Factorials *)
Lemma factorial_pos n : 1 <= factorial n.
Proof. induction n as [|n IH]; [cbn; lia|]. cbn [factorial]. nia. Qed.
Lemma factorial_mono n m : (n <= m)%nat -> factorial n <= factorial m.
Proof.
  intros H. induction H as [|m H IH]; [lia|]. apply Z.le_trans with (factorial m); auto.
  cbn [factorial]. pose proof (factorial_pos m). nia.
Qed.

Lemma to_double t z : imin t <= z <= imax t ->
  is_number 53 1024 (to_format Double (NInt t z)) /\ nearest Double (z * one) 1 (to_format Double (NInt t z)).
Proof.
  intros H. destruct (to_format_converted Double (NInt t z) H eq_refl ltac:(discriminate)) as [N [C _]]. split; auto.
Qed.
Lemma small_double z : 0 <= z <= 22 -> exists w, is_number 53 1024 w /\ fvalue Double w = z * one.
Proof.
  intros H. destruct (representable 53 1024 ltac:(lia) ltac:(lia) z 1074) as (w & W1 & W2).
  - split; [lia|]. apply Z.le_lt_trans with 22; [lia|reflexivity].
  - change (emin 53 1024) with (-1074). lia.
  - exists w. split; auto. unfold fvalue. cbn [fprec femax]. rewrite W2. 
    assert (step Double = 1) as -> by reflexivity. assert (one = 2 ^ 1074) as -> by reflexivity. ring.
Qed.
Lemma double_exact t z : imin t <= z <= imax t -> 0 <= z <= 22 -> fvalue Double (to_format Double (NInt t z)) = z * one.
Proof.
  intros H B. destruct (to_double t z H) as [_ [_ N]]. destruct (small_double z B) as (w & W1 & W2).
  specialize (N w W1). rewrite W2, !Z.mul_1_r in N. lia.
Qed.
Lemma double_large t z : imin t <= z <= imax t -> 22 <= z -> 22 * one <= fvalue Double (to_format Double (NInt t z)).
Proof.
  intros H B. destruct (to_double t z H) as [_ [_ N]]. destruct (small_double 22 ltac:(lia)) as (w & W1 & W2).
  specialize (N w W1). rewrite W2, !Z.mul_1_r in N. pose proof one_pos. assert (22 * one <= z * one) by (apply Z.mul_le_mono_nonneg_r; lia). lia.
Qed.
Lemma double_negative t z : imin t <= z <= imax t -> z = imin t -> signed t = true ->
  exists n, n < 0 /\ fvalue Double (to_format Double (NInt t z)) = n * one.
Proof.
  intros _ -> S. exists (imin t). split; [destruct t; try discriminate S; reflexivity|].
  destruct t; try discriminate S; vm_compute; reflexivity.
Qed.

Lemma double_units : forall x, fvalue Double x = units 53 1024 x.
Proof. intros. unfold fvalue. cbn [fprec femax]. assert (step Double = 1) as -> by reflexivity. ring. Qed.
Lemma double_one : unit 53 1024 = one.
Proof. reflexivity. Qed.

Lemma rounded_exact g k : 0 <= k -> fvalue Double g = k * one -> rounded_half_away Double g = k.
Proof.
  intros Hk E. unfold rounded_half_away. cbn [fprec femax]. rewrite <- double_units, double_one, E. pose proof one_pos.
  rewrite Z.abs_eq by nia. 
  replace (2 * (k * one) + one) with (one + k * (2 * one)) by ring. rewrite Z.div_add by lia. rewrite (Z.div_small one) by lia.
  destruct (Z.eq_dec k 0) as [->|]; [reflexivity|]. rewrite Z.sgn_pos by nia. lia.
Qed.
Lemma rounded_large g k : 0 < k -> k * one <= fvalue Double g -> k <= rounded_half_away Double g.
Proof.
  intros Hk E. unfold rounded_half_away. cbn [fprec femax]. rewrite <- double_units, double_one. pose proof one_pos.
  assert (0 < k * one) by nia. rewrite Z.abs_eq, Z.sgn_pos, Z.mul_1_l by lia. apply Z.div_le_lower_bound; [lia|]. lia.
Qed.

Lemma max_double t : units 53 1024 (to_format Double (NInt t (imax t))) =
  (match t with S64 => 2 ^ 63 | U64 => 2 ^ 64 | _ => imax t end) * one.
Proof. destruct t; vm_compute; reflexivity. Qed.

Lemma factorial_20 n : (n <= 20)%nat -> factorial n <= 2432902008176640000.
Proof. intros H. apply factorial_mono in H. change (factorial 20) with 2432902008176640000 in H. auto. Qed.
Lemma factorial_21 n : (21 <= n)%nat -> 51090942171709440000 <= factorial n.
Proof. intros H. apply factorial_mono in H. change (factorial 21) with 51090942171709440000 in H. auto. Qed.
Lemma imax_below t : imax t < 18446744073709551616.
Proof. destruct t; reflexivity. Qed.
Lemma imin_nonpos t : imin t <= 0.
Proof. destruct t; cbn; lia. Qed.
Lemma imax_small t : 127 <= imax t.
Proof. destruct t; cbn; lia. Qed.

Lemma within_range_exact t g k : 0 <= k <= 2432902008176640000 -> is_number 53 1024 g -> fvalue Double g = k * one ->
  factorial_within_range t g = (k <=? imax t).
Proof.
  intros Hk N E. assert (R := rounded_exact g k ltac:(lia) E).
  assert (W : factorial_within_range t g = (rounded_half_away Double g * unit (fprec Double) (femax Double) <=?
         units (fprec Double) (femax Double) (to_format Double (NInt t (imax t))))).
  { destruct N as [_ N]. destruct g; try discriminate N; reflexivity. }
  rewrite W, R. cbn [fprec femax]. rewrite max_double, double_one. pose proof one_pos.
  assert (T : forall a b, (a * one <=? b * one) = (a <=? b)).
  { intros. destruct (Z.leb_spec (a * one) (b * one)), (Z.leb_spec a b); auto; nia. }
  rewrite T. destruct t; auto.
  - change (2 ^ 64) with 18446744073709551616. change (imax U64) with 18446744073709551615. destruct (Z.leb_spec k 18446744073709551616), (Z.leb_spec k 18446744073709551615); auto; lia.
  - change (2 ^ 63) with 9223372036854775808. change (imax S64) with 9223372036854775807. destruct (Z.leb_spec k 9223372036854775808), (Z.leb_spec k 9223372036854775807); auto; lia.
Qed.
Lemma within_range_large t g : is_number 53 1024 g -> 51090942171709440000 * one <= fvalue Double g ->
  factorial_within_range t g = false.
Proof.
  intros N E. assert (R := rounded_large g 51090942171709440000 ltac:(lia) E).
  assert (W : factorial_within_range t g = (rounded_half_away Double g * unit (fprec Double) (femax Double) <=?
         units (fprec Double) (femax Double) (to_format Double (NInt t (imax t))))).
  { destruct N as [_ N]. destruct g; try discriminate N; reflexivity. }
  rewrite W. cbn [fprec femax]. rewrite max_double, double_one. pose proof one_pos. apply Z.leb_gt.
  apply Z.mul_lt_mono_pos_r; auto. assert (B := imax_below t). destruct t; try lia.
Qed.

(** What [std::tgamma(v + 1)] is *)
Definition gamma_case (t : ity) (n : nat) (g : spec_float) : Prop :=
  ((n <= 20)%nat /\ is_number 53 1024 g /\ fvalue Double g = factorial n * one) \/
  ((21 <= n)%nat /\ (is_finite g = false /\ factorial_within_range t g = false \/
    is_number 53 1024 g /\ 51090942171709440000 * one <= fvalue Double g)).

Lemma next_in_range t v : 0 <= v <= imax t ->
  (0 <= v + 1 <= imax (promote t)) \/ (v = imax t /\ promote t = t /\ 2147483647 <= v).
Proof.
  intros H. destruct t; 
    try (left; change (imax (promote _)) with 2147483647; cbn [imax] in H; lia);
    match goal with |- context [imax (promote ?t)] => change (promote t) with t end;
    (match type of H with context [imax ?t] => destruct (Z.eq_dec v (imax t)) as [E|E] end;
     [right; split; [auto|split; [auto|rewrite E; cbn [imax]; lia]]|left; lia]).
Qed.

Lemma gamma_cases tgamma wrapv t v : is_tgamma tgamma -> 0 <= v <= imax t ->
  (exists g, gamma_of tgamma wrapv t v = Some g /\ gamma_case t (Z.to_nat v) g) \/
  (gamma_of tgamma wrapv t v = None /\ wrapv = false /\ (21 <= Z.to_nat v)%nat).
Proof.
  intros (G1 & G2 & G3 & G4) Hv. unfold gamma_of. destruct (next_in_range t v Hv) as [R|(E & Pr & Lv)].
  - left. assert (A : arith wrapv (promote t) (v + 1) = Some (v + 1)).
    { unfold arith. assert (I := imin_nonpos (promote t)). destruct (signed (promote t)) eqn:S.
      - replace (imin (promote t) <=? v + 1) with true by (symmetry; apply Z.leb_le; lia).
        replace (v + 1 <=? imax (promote t)) with true by (symmetry; apply Z.leb_le; lia). reflexivity.
      - f_equal. unfold conv. assert (imin (promote t) = 0 /\ modulus (promote t) = imax (promote t) + 1) as [-> ->]
          by (destruct (promote t); try discriminate S; split; reflexivity). rewrite Z.mod_small by lia. lia. }
    rewrite A. exists (tgamma (to_format Double (NInt (promote t) (v + 1)))). split; auto.
    assert (IR : imin (promote t) <= v + 1 <= imax (promote t)) by (pose proof (imin_nonpos (promote t)); lia).
    destruct (to_double _ _ IR) as [N _]. unfold gamma_case. destruct (Nat.le_gt_cases (Z.to_nat v) 20) as [L|L].
    + left. split; auto. apply (G1 _ (Z.to_nat v)); auto. rewrite double_exact by lia. f_equal. lia.
    + right. split; [lia|]. assert (D := double_large (promote t) (v + 1) IR ltac:(lia)). destruct (G2 _ N D) as [->|[X Y]].
      * left. split; reflexivity.
      * right. split; auto.
  - assert (L : (21 <= Z.to_nat v)%nat) by lia.
    unfold arith. rewrite Pr. destruct (signed t) eqn:S.
    + replace (v + 1 <=? imax t) with false by (symmetry; apply Z.leb_gt; lia). rewrite andb_false_r.
      destruct wrapv; [|right; auto]. left. eexists. split; [reflexivity|]. right. split; auto. left.
      assert (C : conv t (v + 1) = imin t).
      { rewrite E. destruct t; try discriminate S; vm_compute; reflexivity. }
      rewrite C. assert (IR : imin t <= imin t <= imax t) by (destruct t; vm_compute; split; discriminate).
      destruct (double_negative t (imin t) IR eq_refl S) as (n & Hn & Dn). destruct (to_double _ _ IR) as [N _].
      rewrite (G4 _ n N Dn Hn). split; reflexivity.
    + left. eexists. split; [reflexivity|]. right. split; auto. left.
      assert (C : conv t (v + 1) = 0).
      { rewrite E. destruct t; try discriminate S; vm_compute; reflexivity. }
      rewrite C. change (to_format Double (NInt t 0)) with (S754_zero false). rewrite G3. split; reflexivity.
Qed.

Lemma ifactorial_spec tgamma cast wrapv t v : is_tgamma tgamma -> imin t <= v <= imax t ->
  (v < 0 -> ifactorial tgamma cast wrapv t v = IMarked) /\
  (0 <= v -> factorial (Z.to_nat v) <= imax t -> ifactorial tgamma cast wrapv t v = IWritten (factorial (Z.to_nat v))) /\
  (0 <= v -> imax t < factorial (Z.to_nat v) ->
    (cast = None -> ifactorial tgamma cast wrapv t v = IUndefined) /\
    (forall c, cast = Some c -> wrapv = true -> ifactorial tgamma cast wrapv t v = IMarked)).
Proof.
  intros HG Hv. unfold ifactorial. split; [|].
  { intros H. replace (0 <=? v) with false by (symmetry; apply Z.leb_gt; lia). reflexivity. }
  split; intros H F; (replace (0 <=? v) with true by (symmetry; apply Z.leb_le; lia));
    destruct (gamma_cases tgamma wrapv t v HG ltac:(lia)) as [(g & -> & [(L & N & E)|(L & C)])|(-> & W & L)];
    try (pose proof (factorial_20 _ L)); try (pose proof (factorial_21 _ L)); pose proof (imax_below t); pose proof (factorial_pos (Z.to_nat v)).
  - unfold factorial_value. change (isfinite g) with (is_finite g). rewrite (proj2 N), (rounded_exact g (factorial (Z.to_nat v)) ltac:(lia) E), (within_range_exact t g (factorial (Z.to_nat v)) ltac:(lia) N E).
    replace (imin t <=? factorial (Z.to_nat v)) with true by (symmetry; apply Z.leb_le; pose proof (imin_nonpos t); lia).
    replace (factorial (Z.to_nat v) <=? imax t) with true by (symmetry; apply Z.leb_le; lia). reflexivity.
  - lia.
  - lia.
  - unfold factorial_value. change (isfinite g) with (is_finite g). rewrite (proj2 N), (rounded_exact g (factorial (Z.to_nat v)) ltac:(lia) E), (within_range_exact t g (factorial (Z.to_nat v)) ltac:(lia) N E).
    replace (factorial (Z.to_nat v) <=? imax t) with false by (symmetry; apply Z.leb_gt; lia). rewrite andb_false_r.
    split; [intros ->; reflexivity|intros c -> _; reflexivity].
  - assert (factorial_within_range t g = false /\ factorial_value cast t g = match cast with Some c => Some (c g) | None => None end) as [-> ->].
    { unfold factorial_value. change (isfinite g) with (is_finite g). destruct C as [[C1 C2]|[C1 C2]].
      - rewrite C1, C2. split; reflexivity.
      - rewrite (within_range_large t g C1 C2). split; auto. pose proof (rounded_large g 51090942171709440000 ltac:(lia) C2).
        replace (rounded_half_away Double g <=? imax t) with false by (symmetry; apply Z.leb_gt; lia). rewrite andb_false_r. reflexivity. }
    split; [intros ->; reflexivity|intros c -> _; reflexivity].
  - split; auto. intros c _ W'. congruence.
Qed.
