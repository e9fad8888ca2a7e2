(** * Proofs about floating point elements *)
From Coq Require Import ZArith Bool SpecFloat Lia.
From Verif Require Import IntsModel ArithModel FloatModel IeeeSpec IeeeProofs FloatSpec.
Open Scope Z_scope.

Lemma fprec_gt f : 1 < fprec f. Proof. destruct f; cbn; lia. Qed.
Lemma fprec_lt f : fprec f < femax f. Proof. destruct f; cbn; lia. Qed.
Local Hint Resolve fprec_gt fprec_lt : core.

Section Representable.
Variables (prec emax : Z).
Hypothesis Hprec : 1 < prec.
Hypothesis Hmax : prec < emax.
Local Notation emin := (emin prec emax).

(** ** Numbers with few digits are numbers of the format *)
Lemma rne_exact m D : 0 <= m -> 0 < D -> rne (m * D) D = m.
Proof.
  intros Hm HD. unfold rne, loc_of. rewrite Z.mod_mul, Z.div_mul by lia. reflexivity.
Qed.

Lemma representable m k : 0 <= m < 2 ^ prec -> 0 <= k <= emax - prec - emin ->
  exists x, is_number prec emax x /\ units prec emax x = m * 2 ^ k.
Proof.
  intros Hm Hk. destruct (Z.eq_dec m 0) as [->|NZ].
  { exists (S754_zero false). repeat split; auto. }
  assert (HP : 0 < m * 2 ^ k) by (pose proof (pow2_pos k ltac:(lia)); nia).
  assert (EM := emin_neg prec emax Hprec Hmax).
  destruct (round_aux_spec prec emax Hprec Hmax false (m * 2 ^ k) 1 (Z.min emin (fexp prec emax (Zdigits2 (m * 2 ^ k) + emin)))
     ltac:(lia) ltac:(lia)) with (A := m * 2 ^ k * 2 ^ Z.max 0 (Z.min emin (fexp prec emax (Zdigits2 (m * 2 ^ k) + emin)) - emin))
     (B := 2 ^ Z.max 0 (emin - Z.min emin (fexp prec emax (Zdigits2 (m * 2 ^ k) + emin)))) as (g & G & R).
  - rewrite Z.div_1_r. unfold SpecFloat.fexp. lia.
  - pose proof (pow2_pos (Z.max 0 (Z.min emin (fexp prec emax (Zdigits2 (m * 2 ^ k) + emin)) - emin)) ltac:(lia)). nia.
  - apply pow2_pos. lia.
  - lia.
  - assert (E : Z.min emin (fexp prec emax (Zdigits2 (m * 2 ^ k) + emin)) = emin) by (unfold SpecFloat.fexp; lia).
    rewrite E in *. rewrite Z.sub_diag in *. cbn [Z.max Z.compare] in *. replace (2 ^ 0) with 1 in * by lia.
    rewrite !Z.mul_1_r in *. rewrite Z.mul_1_l in *.
    destruct G as (G0 & G1 & G2).
    assert (L : g <= k).
    { destruct (Z.eq_dec g 0) as [->|]; [lia|]. specialize (G2 ltac:(lia)). rewrite Z.mul_1_l in G2.
      assert (m * 2 ^ k < 2 ^ (prec + k)) by (rewrite Z.pow_add_r by lia; pose proof (pow2_pos k ltac:(lia)); nia).
      assert (g + prec - 1 < prec + k) by (apply (Z.pow_lt_mono_r_iff 2); lia). lia. }
    assert (Q : m * 2 ^ k = m * 2 ^ (k - g) * 2 ^ g) by (rewrite <- Z.mul_assoc, <- Z.pow_add_r by lia; do 2 f_equal; lia).
    rewrite Q in R at 1. rewrite rne_exact in R by (try apply pow2_pos; try lia; pose proof (pow2_pos (k - g) ltac:(lia)); nia).
    rewrite <- Q in R. destruct R as [F R].
    replace (m * 2 ^ k <? 2 ^ (emax - emin)) with true in R.
    + destruct R as [R1 R2]. eexists. split; [split; eauto|]. rewrite R2. lia.
    + symmetry. apply Z.ltb_lt. apply Z.lt_le_trans with (2 ^ prec * 2 ^ k).
      * apply Z.mul_lt_mono_pos_r; [apply pow2_pos|]; lia.
      * rewrite <- Z.pow_add_r by lia. apply Z.pow_le_mono_r; lia.
Qed.

Lemma opp_number x : is_number prec emax x -> is_number prec emax (SFopp x) /\ units prec emax (SFopp x) = - units prec emax x.
Proof.
  intros [F N]. destruct x as [s|s| |s m e]; try discriminate; cbn [SFopp]; repeat split; auto.
  cbn [units]. destruct s; cbn [negb]; lia.
Qed.

Lemma representable_signed a m k : 0 <= m < 2 ^ prec -> 0 <= k <= emax - prec - emin -> Z.abs a = m * 2 ^ k ->
  exists x, is_number prec emax x /\ units prec emax x = a.
Proof.
  intros Hm Hk H. destruct (representable m k Hm Hk) as (x & X & E).
  destruct (Z.abs_spec a) as [[_ P]|[_ P]].
  - exists x. split; auto. lia.
  - exists (SFopp x). destruct (opp_number x X) as [O1 O2]. split; auto. lia.
Qed.

(** Rounding a number of the format does not change it. *)
Lemma rounding_exact a b r x : 0 < b -> is_rounding prec emax a b r -> is_number prec emax x -> units prec emax x * b = a ->
  is_number prec emax r /\ units prec emax r = units prec emax x.
Proof.
  intros Hb [F [[T ->]|[T [C1 C2]]]] X E.
  - exfalso. eapply number_not_too_large; eauto. rewrite E. auto.
  - split; auto. specialize (C2 x X). rewrite <- E in C2. assert (units prec emax r * b = units prec emax x * b) by lia. nia.
Qed.

Lemma rounding_scale a b k r : 0 < k -> is_rounding prec emax a b r -> is_rounding prec emax (a * k) (b * k) r.
Proof.
  intros Hk [F H]. assert (T : too_large prec emax (a * k) (b * k) <-> too_large prec emax a b).
  { unfold too_large. rewrite Z.abs_mul, (Z.abs_eq k) by lia.
    set (c := (2 ^ (prec + 1) - 1) * _). replace (b * k * c) with (b * c * k) by ring. rewrite Z.mul_assoc.
    rewrite <- Z.mul_le_mono_pos_r by auto. tauto. }
  split; auto. destruct H as [[H ->]|[H [C1 C2]]]; [left|right]; rewrite T; split; auto.
  - f_equal. destruct (Z.ltb_spec a 0), (Z.ltb_spec (a * k) 0); auto; nia.
  - split; auto. intros w W. specialize (C2 w W).
    replace (units prec emax r * (b * k) - a * k) with ((units prec emax r * b - a) * k) by ring.
    replace (units prec emax w * (b * k) - a * k) with ((units prec emax w * b - a) * k) by ring.
    rewrite !Z.abs_mul. apply Z.mul_le_mono_nonneg_r; lia.
Qed.
End Representable.

(** ** In steps of [2 ^ -1074] *)
Lemma step_pos f : 0 < step f.
Proof. destruct f; [apply pow2_pos; lia|reflexivity]. Qed.
Lemma one_pos : 0 < one.
Proof. apply pow2_pos. lia. Qed.
Lemma unit_step f : unit (fprec f) (femax f) * step f = one.
Proof. destruct f; reflexivity. Qed.
Lemma emin_unit f : 2 ^ (0 - emin (fprec f) (femax f)) * step f = one.
Proof. destruct f; reflexivity. Qed.
Lemma overflow_step f : (2 ^ (fprec f + 1) - 1) * 2 ^ (femax f - fprec f - emin (fprec f) (femax f)) * step f = 2 * largest f + largest_step f.
Proof. destruct f; vm_compute; reflexivity. Qed.
Global Opaque one step largest largest_step.
Local Hint Resolve step_pos one_pos : core.

Lemma overflows_iff f a b : overflows f a b <-> too_large (fprec f) (femax f) a (b * step f).
Proof.
  unfold overflows, too_large. rewrite <- overflow_step.
  replace (b * step f * ((2 ^ (fprec f + 1) - 1) * 2 ^ (femax f - fprec f - emin (fprec f) (femax f)))) with
    ((2 ^ (fprec f + 1) - 1) * 2 ^ (femax f - fprec f - emin (fprec f) (femax f)) * step f * b) by ring. tauto.
Qed.
Lemma nearest_iff f a b r : nearest f a b r <-> closest (fprec f) (femax f) a (b * step f) r.
Proof.
  unfold nearest, closest, fvalue. split; intros [H C]; split; auto; intros w W; specialize (C w W);
    [rewrite !(Z.mul_comm b), !Z.mul_assoc|rewrite !(Z.mul_comm b), !Z.mul_assoc in C]; auto.
Qed.

(** ** Conversion of arguments *)
Lemma int_range t z : imin t <= z <= imax t -> Z.abs z <= 2 ^ 64.
Proof. replace (2 ^ 64) with 18446744073709551616 by reflexivity. destruct t; cbn [imin imax]; lia. Qed.

Lemma wide_enough f : 66 < femax f - fprec f.
Proof. destruct f; cbn; lia. Qed.

(** A converted integer is small. *)
Lemma int_converted R t z : imin t <= z <= imax t ->
  is_number (fprec R) (femax R) (to_format R (NInt t z)) /\
  is_rounding (fprec R) (femax R) (z * 2 ^ (0 - emin (fprec R) (femax R))) 1 (to_format R (NInt t z)) /\
  Z.abs (units (fprec R) (femax R) (to_format R (NInt t z))) <= 2 ^ (65 - emin (fprec R) (femax R)).
Proof.
  intros H. apply int_range in H. cbn [to_format]. assert (P := fprec_gt R). assert (M := fprec_lt R).
  assert (EM := emin_neg _ _ P M). assert (W := wide_enough R).
  set (p := fprec R) in *. set (e := femax R) in *.
  assert (B := binary_normalize_spec p e P M z 0 false ltac:(lia)).
  set (r := binary_normalize p e z 0 false) in *.
  destruct (representable p e P M 1 (64 - emin p e)) as (w & Ww & Wu).
  { split; [lia|]. apply Z.pow_gt_1; lia. } { lia. }
  rewrite Z.mul_1_l in Wu.
  assert (U := pow2_pos (0 - emin p e) ltac:(lia)).
  assert (E64 : 2 ^ (64 - emin p e) = 2 ^ 64 * 2 ^ (0 - emin p e)) by (rewrite <- Z.pow_add_r by lia; f_equal; lia).
  assert (E65 : 2 ^ (65 - emin p e) = 2 * 2 ^ (64 - emin p e)) by (rewrite <- Z.pow_succ_r by lia; f_equal; lia).
  assert (A : Z.abs (z * 2 ^ (0 - emin p e)) <= 2 ^ (64 - emin p e)).
  { rewrite Z.abs_mul, E64, (Z.abs_eq (2 ^ (0 - _))) by lia. apply Z.mul_le_mono_nonneg_r; lia. }
  assert (NT : ~ too_large p e (z * 2 ^ (0 - emin p e)) 1).
  { intros T. apply (number_not_too_large p e P M w 1 ltac:(lia) Ww). unfold too_large in *.
    rewrite Wu, Z.mul_1_r, (Z.abs_eq (2 ^ (64 - emin p e))) by (apply Z.lt_le_incl, pow2_pos; lia). lia. }
  assert (B' := B). destruct B' as [F [[T _]|[_ C]]]; [contradiction|]. destruct C as [C1 C2]. split; auto. split; auto.
  assert (C3 := C2 w Ww). destruct (opp_number p e w Ww) as [O1 O2]. assert (C4 := C2 _ O1). rewrite O2 in C4. rewrite Wu in *.
  rewrite E65. lia.
Qed.

Lemma float_converted R f x : is_float (fprec f) (femax f) x -> is_finite x = true -> fmt_eqb f R = true \/ R = Double ->
  is_number (fprec R) (femax R) (to_format R (NFloat f x)) /\ fvalue R (to_format R (NFloat f x)) = fvalue f x.
Proof.
  intros F N H. cbn [to_format]. destruct (fmt_eqb f R) eqn:E.
  - assert (f = R) as -> by (destruct f, R; auto; discriminate). split; [split|]; auto.
  - destruct H as [H| ->]; [discriminate|]. destruct f; [|discriminate].
    destruct x as [s|s| |s m e]; try discriminate N.
    + split; [split; reflexivity|]. reflexivity.
    + assert (X := finite_exponent 24 128 _ _ _ F). assert (D := number_units 24 128 ltac:(lia) ltac:(lia) _ (conj F N)).
      assert (B := binary_round_spec 53 1024 ltac:(lia) ltac:(lia) s m e). cbn in X. change (emin 53 1024) with (-1074) in *.
      assert (Hm : 0 < Z.pos m < 2 ^ 24).
      { unfold is_float, valid_binary, bounded, canonical_mantissa in F. apply andb_prop in F. destruct F as [F _].
        apply Zeq_bool_eq in F. unfold fexp in F. change (emin (fprec Single) (femax Single)) with (-149) in F. cbn [fprec] in F.
        assert (DP := digits_pos m). assert (2 ^ Z.pos (digits2_pos m) <= 2 ^ 24) by (apply Z.pow_le_mono_r; lia). lia. }
      specialize (B ltac:(lia)). apply rounded_signed in B; try lia.
      destruct (representable_signed 53 1024 ltac:(lia) ltac:(lia) ((if s then -1 else 1) * (Z.pos m * 2 ^ (e - -1074))) (Z.pos m) (e - -1074)) as (w & W1 & W2).
      * split; [lia|]. apply Z.lt_trans with (2 ^ 24); [lia|reflexivity].
      * change (emin 53 1024) with (-1074). lia.
      * pose proof (pow2_pos (e - -1074) ltac:(lia)). destruct s; nia.
      * destruct (rounding_exact 53 1024 ltac:(lia) ltac:(lia) _ 1 _ w ltac:(lia) B W1 ltac:(lia)) as [R1 R2]. split; auto.
        unfold fvalue. cbn [fprec femax]. rewrite R2, W2. cbn [units]. change (emin 24 128) with (-149).
        assert (step Single = 2 ^ 925) as -> by reflexivity. assert (step Double = 1) as -> by reflexivity.
        replace (e - -1074) with (e - -149 + 925) by lia. rewrite Z.pow_add_r by lia. ring.
Qed.

Lemma result_cases n1 n2 R : result_format n1 n2 = Some R ->
  (forall f x, n1 = NFloat f x -> fmt_eqb f R = true \/ R = Double) /\ (forall f x, n2 = NFloat f x -> fmt_eqb f R = true \/ R = Double).
Proof.
  unfold result_format. destruct n1 as [t1 z1|[] x1], n2 as [t2 z2|[] x2]; cbn; intros H; inversion H; subst; split; intros f x E; inversion E; subst; auto.
Qed.

Lemma to_format_converted R n : argument n -> finite n = true -> (forall f x, n = NFloat f x -> fmt_eqb f R = true \/ R = Double) ->
  is_number (fprec R) (femax R) (to_format R n) /\ converted R n (to_format R n).
Proof.
  intros A F H. destruct n as [t z|f x].
  - destruct (int_converted R t z A) as (N & RR & _). split; auto. split; [|discriminate].
    apply nearest_iff. cbn [value]. rewrite <- (emin_unit R), Z.mul_assoc.
    destruct (rounding_scale _ _ (fprec_gt R) _ _ _ _ (step_pos R) RR) as [_ [[T E]|[_ C]]]; auto.
    destruct N as [_ N]. rewrite E in N. discriminate.
  - destruct (float_converted R f x A F (H f x eq_refl)) as [N E]. split; auto. split; auto.
    split; auto. intros w W. cbn [value]. rewrite E. rewrite Z.mul_1_r, Z.sub_diag. cbn. lia.
Qed.

(** ** The operations on numbers *)
Lemma rounding_outcome R a b r : is_rounding (fprec R) (femax R) a (b * step R) r ->
  if isfinite r then nearest R a b r /\ ~ overflows R a b else overflows R a b.
Proof.
  intros [F [[T ->]|[T C]]]; [cbn; apply overflows_iff; auto|].
  destruct C as [C1 C2]. destruct C1 as [C0 C1]. replace (isfinite r) with true by (destruct r; auto). split.
  - apply nearest_iff. split; [split|]; auto.
  - rewrite overflows_iff. auto.
Qed.

Section Ops.
Variables (R : fmt) (x y : spec_float).
Hypothesis X : is_number (fprec R) (femax R) x.
Hypothesis Y : is_number (fprec R) (femax R) y.

Lemma add_rounding : is_rounding (fprec R) (femax R) (fvalue R x + fvalue R y) (1 * step R) (SFadd (fprec R) (femax R) x y).
Proof.
  unfold fvalue. rewrite <- Z.mul_add_distr_r. apply rounding_scale; auto. apply SFadd_spec; auto.
Qed.
Lemma sub_rounding : is_rounding (fprec R) (femax R) (fvalue R x - fvalue R y) (1 * step R) (SFsub (fprec R) (femax R) x y).
Proof.
  unfold fvalue. rewrite <- Z.mul_sub_distr_r. apply rounding_scale; auto. apply SFsub_spec; auto.
Qed.
Lemma mul_rounding : is_rounding (fprec R) (femax R) (fvalue R x * fvalue R y) (one * step R) (SFmul (fprec R) (femax R) x y).
Proof.
  unfold fvalue. rewrite <- (unit_step R).
  replace (units (fprec R) (femax R) x * step R * (units (fprec R) (femax R) y * step R)) with
    (units (fprec R) (femax R) x * units (fprec R) (femax R) y * (step R * step R)) by ring.
  rewrite <- (Z.mul_assoc (unit _ _)). apply rounding_scale; auto; [pose proof (step_pos R); nia|]. apply SFmul_spec; auto.
Qed.
Lemma div_rounding : fvalue R y <> 0 ->
  is_rounding (fprec R) (femax R) (Z.sgn (fvalue R y) * fvalue R x * one) (Z.abs (fvalue R y) * step R) (SFdiv (fprec R) (femax R) x y).
Proof.
  intros NZ. unfold fvalue in *. rewrite <- (unit_step R). pose proof (step_pos R) as P.
  rewrite Z.abs_mul, Z.sgn_mul, (Z.abs_eq (step R)), (Z.sgn_pos (step R)), Z.mul_1_r by lia.
  replace (Z.sgn (units (fprec R) (femax R) y) * (units (fprec R) (femax R) x * step R) * (unit (fprec R) (femax R) * step R)) with
    (Z.sgn (units (fprec R) (femax R) y) * units (fprec R) (femax R) x * unit (fprec R) (femax R) * (step R * step R)) by ring.
  rewrite <- (Z.mul_assoc (Z.abs _)). apply rounding_scale; auto; [nia|]. apply SFdiv_spec; auto. intros E. apply NZ. rewrite E. reflexivity.
Qed.
End Ops.

(** Integers cannot push a number over the limit. *)
Lemma mixed_no_overflow R t z y s : (s = 1 \/ s = -1) -> imin t <= z <= imax t -> is_number (fprec R) (femax R) y ->
  ~ overflows R (fvalue R (to_format R (NInt t z)) + s * fvalue R y) 1 /\ ~ overflows R (fvalue R y + s * fvalue R (to_format R (NInt t z))) 1.
Proof.
  intros Hs Hz Y. destruct (int_converted R t z Hz) as (_ & _ & B).
  assert (P := fprec_gt R). assert (M := fprec_lt R). assert (EM := emin_neg _ _ P M). assert (W := wide_enough R).
  destruct (number_units _ _ P M y Y) as (a & k & Ha & Hk & E).
  rewrite !overflows_iff. unfold too_large, fvalue. rewrite !Z.mul_1_l.
  set (p := fprec R) in *. set (e := femax R) in *. set (u := units p e (to_format R (NInt t z))) in *. set (v := units p e y) in *.
  set (G := e - p - emin p e) in *.
  assert (Hv : Z.abs v <= (2 ^ p - 1) * 2 ^ G).
  { rewrite E. assert (2 ^ k <= 2 ^ G) by (apply Z.pow_le_mono_r; lia). pose proof (pow2_pos k ltac:(lia)).
    apply Z.mul_le_mono_nonneg; lia. }
  assert (Hu : 2 * Z.abs u < 2 ^ G).
  { assert (2 * 2 ^ (65 - emin p e) < 2 ^ G); [|lia]. rewrite <- Z.pow_succ_r by lia. apply Z.pow_lt_mono_r; unfold G; lia. }
  assert (P2 : 2 ^ (p + 1) = 2 * 2 ^ p) by (rewrite <- Z.pow_succ_r by lia; f_equal; lia).
  assert (L : 2 * (Z.abs u + Z.abs v) < (2 ^ (p + 1) - 1) * 2 ^ G) by (rewrite P2; lia).
  pose proof (step_pos R) as Sp.
  assert (K : forall w, Z.abs w <= Z.abs u + Z.abs v -> ~ step R * ((2 ^ (p + 1) - 1) * 2 ^ G) <= 2 * Z.abs (w * step R)).
  { intros w Hw. rewrite Z.abs_mul, (Z.abs_eq (step R)) by lia. set (c := (2 ^ (p + 1) - 1) * 2 ^ G) in *. nia. }
  split; [replace (u * step R + s * (v * step R)) with ((u + s * v) * step R) by ring|replace (v * step R + s * (u * step R)) with ((v + s * u) * step R) by ring];
    apply K; destruct Hs as [-> | ->]; lia.
Qed.

(** ** Zero *)
Lemma nearest_zero_iff n R : argument n -> finite n = true -> (forall f x, n = NFloat f x -> fmt_eqb f R = true \/ R = Double) ->
  fvalue R (to_format R n) = 0 <-> value n = 0.
Proof.
  intros A F H. destruct n as [t z|f x].
  - destruct (int_converted R t z A) as (N & RR & _). cbn [value]. pose proof one_pos. pose proof (step_pos R).
    assert (P := fprec_gt R). assert (M := fprec_lt R). assert (EM := emin_neg _ _ P M).
    unfold fvalue. set (p := fprec R) in *. set (e := femax R) in *. set (r := to_format R (NInt t z)) in *. split; intros E.
    + assert (units p e r = 0) as E0 by nia. destruct (Z.eq_dec z 0) as [->|NZ]; [lia|]. exfalso.
      destruct RR as [_ [[T Q]|[_ [_ C]]]]; [destruct N as [_ N]; rewrite Q in N; discriminate|].
      assert (U := pow2_pos (0 - emin p e) ltac:(lia)).
      destruct (representable_signed p e P M (Z.sgn z * 2 ^ (0 - emin p e)) 1 (0 - emin p e)) as (w & W1 & W2).
      * split; [lia|]. apply Z.pow_gt_1; lia.
      * assert (WE := wide_enough R). fold p e in WE. lia.
      * rewrite Z.abs_mul, (Z.abs_eq (2 ^ _)) by lia. destruct z; cbn [Z.sgn Z.abs]; lia.
      * specialize (C w W1). rewrite E0, W2 in C. rewrite !Z.mul_1_r in C.
        replace (Z.sgn z * 2 ^ (0 - emin p e) - z * 2 ^ (0 - emin p e)) with ((Z.sgn z - z) * 2 ^ (0 - emin p e)) in C by ring.
        replace (0 - z * 2 ^ (0 - emin p e)) with (- z * 2 ^ (0 - emin p e)) in C by ring.
        rewrite !Z.abs_mul, (Z.abs_eq (2 ^ _)) in C by lia. apply Z.mul_le_mono_pos_r in C; auto.
        destruct z; cbn [Z.sgn] in C; lia.
    + assert (z = 0) as -> by nia. reflexivity.
  - destruct (float_converted R f x A F (H f x eq_refl)) as [N E]. rewrite E. tauto.
Qed.

Lemma domain_zero n : argument n -> finite n = true -> fdivide_within_domain n = false <-> value n = 0.
Proof.
  intros A F. destruct n as [t z|f x]; cbn [fdivide_within_domain value].
  - pose proof one_pos. rewrite negb_false_iff, Z.eqb_eq. split; nia.
  - assert (Z0 : is_number (fprec f) (femax f) (S754_zero false)) by (split; reflexivity).
    unfold SFeqb. rewrite (SFcompare_spec (fprec f) (femax f)) by (auto; split; auto). change (units (fprec f) (femax f) (S754_zero false)) with 0.
    unfold fvalue. pose proof (step_pos f). rewrite negb_false_iff. destruct (Z.compare_spec (units (fprec f) (femax f) x) 0) as [E|E|E]; split; intros Q; try discriminate; auto; nia.
Qed.
