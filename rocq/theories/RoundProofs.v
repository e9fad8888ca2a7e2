(** * Rounding to the nearest number of a format, and to the even one of two: proofs *)

From Coq Require Import ZArith Bool Lia SpecFloat.
From Verif Require Import IeeeSpec FloatModel FloatSpec DecimalSpec IeeeProofs FloatProofs.
Open Scope Z_scope.

Lemma rne_tie N D c : 0 <= N -> 0 < D -> c <> rne N D -> Z.abs (c * D - N) = Z.abs (rne N D * D - N) -> Z.even (rne N D) = true.
Proof.
  intros HN HD. assert (R := Z.mod_pos_bound N D HD). assert (E := Z.div_mod N D ltac:(lia)).
  unfold rne, loc_of. set (q := N / D) in *. set (r := N mod D) in *.
  destruct (Z.eqb_spec r 0); cbn [round_nearest_even]; [nia|].
  destruct (Z.compare_spec (2 * r) D) as [H|H|H].
  - destruct (Z.even q) eqn:V; [auto|]. intros _ _. rewrite Z.even_add, V. reflexivity.
  - intros C T. exfalso. assert (c * D - N <= - (D) + r \/ c * D - N >= D - r \/ c = q) by nia. nia.
  - intros C T. exfalso. assert (c <= q \/ c >= q + 2) by lia. nia.
Qed.

Section Rounds.
Variables (prec emax : Z).
Hypothesis Hprec : 1 < prec.
Hypothesis Hmax : prec < emax.
Local Notation emin := (emin prec emax).
Local Notation fexp := (fexp prec emax).
Local Notation units := (units prec emax).
Local Notation is_number := (is_number prec emax).
Local Notation is_float := (is_float prec emax).
Local Notation closest := (closest prec emax).
Local Notation too_large := (too_large prec emax).

Definition rounds (s : bool) (A B : Z) (r : spec_float) : Prop :=
  exists g, is_grid prec A B g /\ rounds_to prec emax s (rne A (B * 2 ^ g) * 2 ^ g) r /\ negative r = s.

Lemma aux_negative s m e l : binary_round_aux prec emax s m e l = S754_nan \/ negative (binary_round_aux prec emax s m e l) = s.
Proof.
  unfold binary_round_aux. destruct (shr_fexp prec emax m e l) as [r f].
  destruct (shr_fexp prec emax (round_nearest_even (shr_m r) (loc_of_shr_record r)) f loc_Exact) as [r' f'].
  destruct (shr_m r'); auto. destruct (f' <=? emax - prec); auto.
Qed.

Lemma rounds_aux s N D ex A B : 0 <= N -> 0 < D -> ex <= fexp (Zdigits2 (N / D) + ex) ->
  0 <= A -> 0 < B -> N * 2 ^ Z.max 0 (ex - emin) * B = A * (D * 2 ^ Z.max 0 (emin - ex)) ->
  rounds s A B (binary_round_aux prec emax s (N / D) ex (loc_of N D)).
Proof.
  intros. destruct (round_aux_spec prec emax Hprec Hmax s N D ex) with (A := A) (B := B) as (g & G & R); auto.
  exists g. split; [exact G|]. split; [exact R|]. destruct (aux_negative s (N / D) ex (loc_of N D)) as [E|E]; [|exact E].
  exfalso. rewrite E in R. destruct R as [_ R]. destruct (_ <? _); [destruct R as [R _]|]; discriminate R.
Qed.

Lemma binary_round_rounds s m e : emin <= e -> rounds s (Zpos m * 2 ^ (e - emin)) 1 (binary_round prec emax s m e).
Proof.
  intros He. unfold binary_round. destruct (emin_neg prec emax Hprec Hmax) as [En1 En2].
  set (F := fexp (Z.pos (digits2_pos m) + e)).
  destruct (Z.le_gt_cases F e) as [L|L].
  - destruct (shl_align_value m e F L) as [V1 V2]. destruct (shl_align m e F) as [mz ez]. cbn [fst snd] in V1, V2. subst ez.
    rewrite <- (loc_of_1 (Zpos mz)). rewrite <- (Z.div_1_r (Zpos mz)) at 1.
    assert (E1 : F = Z.max (Z.pos (digits2_pos m) + e - prec) emin) by reflexivity.
    apply rounds_aux; try lia.
    + rewrite Z.div_1_r, V1, digits_shift by lia. change (Zdigits2 (Z.pos m)) with (Z.pos (digits2_pos m)).
      replace (Z.pos (digits2_pos m) + (e - F) + F) with (Z.pos (digits2_pos m) + e) by lia. fold F. lia.
    + rewrite V1. rewrite (Z.max_r 0 (F - emin)), (Z.max_l 0 (emin - F)) by lia.
      rewrite <- Z.mul_assoc, <- (Z.mul_assoc (Zpos m)), (Z.mul_assoc (2 ^ _)), <- Z.pow_add_r by lia.
      replace (e - F + (F - emin)) with (e - emin) by lia. lia.
  - unfold shl_align. destruct (F - e) as [|p|p] eqn:E; try lia.
    rewrite <- (loc_of_1 (Zpos m)). rewrite <- (Z.div_1_r (Zpos m)) at 2. apply rounds_aux; try lia.
    + rewrite Z.div_1_r. change (Zdigits2 (Z.pos m)) with (Z.pos (digits2_pos m)). fold F. lia.
    + rewrite (Z.max_r 0 (e - emin)), (Z.max_l 0 (emin - e)) by lia. lia.
Qed.

Lemma div_rounds s mx my :
  match SFdiv_core_binary prec emax (Zpos mx) 0 (Zpos my) 0 with
  | (q, e, l) => rounds s (Zpos mx * 2 ^ (- emin)) (Zpos my) (binary_round_aux prec emax s q e l)
  end.
Proof.
  destruct (emin_neg prec emax Hprec Hmax) as [En1 En2]. unfold SFdiv_core_binary.
  set (E := Zdigits2 (Z.pos mx) + 0 - (Zdigits2 (Z.pos my) + 0)). set (e' := Z.min (fexp E) (0 - 0)).
  set (s' := 0 - 0 - e'). assert (Hs : 0 <= s') by (unfold s', e'; lia).
  assert (M : match s' with 0 => Z.pos mx | Z.pos _ => Z.shiftl (Z.pos mx) s' | Z.neg _ => 0 end = Z.pos mx * 2 ^ s').
  { destruct s' as [|p|p] eqn:Es; [lia| |lia]. rewrite Z.shiftl_mul_pow2 by lia. reflexivity. }
  rewrite M. assert (Ps := pow2_pos s' Hs).
  set (N := Z.pos mx * 2 ^ s'). set (D := Z.pos my).
  assert (DE : Z.div_eucl N D = (N / D, N mod D)) by (unfold Z.div, Z.modulo; destruct (Z.div_eucl N D); reflexivity).
  rewrite DE. rewrite new_location_spec by (unfold D; try lia; apply Z.mod_pos_bound; lia).
  fold (loc_of N D). pose proof (pow2_pos (- emin) ltac:(lia)).
  apply rounds_aux; try (unfold N, D; nia).
  - destruct (digits_nonneg (Zpos mx) ltac:(lia)) as (_ & _ & _ & A). destruct (A ltac:(lia)) as [A1 A2].
    destruct (digits_nonneg (Zpos my) ltac:(lia)) as (B0 & _ & B2 & _).
    assert (K : Zdigits2 (Z.pos mx) + s' - Zdigits2 (Z.pos my) = E - e') by (unfold E, s'; lia).
    assert (HfE : fexp E = Z.max (E - prec) emin) by reflexivity.
    assert (He' : e' <= fexp E) by (unfold e'; lia).
    assert (Hq : 0 <= N / D) by (apply Z.div_pos; unfold N, D; nia).
    destruct (digits_nonneg (N / D) Hq) as (Q0 & _ & Q1 & _).
    destruct (Z.le_gt_cases (E - e') 0) as [L|L].
    + unfold SpecFloat.fexp. lia.
    + assert (2 ^ (E - e' - 1) <= N / D).
      { apply Z.div_le_lower_bound; [unfold D; lia|]. unfold N, D.
        assert (H1 : Z.pos my * 2 ^ (E - e' - 1) <= 2 ^ Zdigits2 (Z.pos my) * 2 ^ (E - e' - 1)) by (apply Z.mul_le_mono_nonneg_r; [apply Z.lt_le_incl, pow2_pos; lia|lia]).
        rewrite <- Z.pow_add_r in H1 by lia.
        assert (H0 : 2 ^ (Zdigits2 (Z.pos mx) - 1) * 2 ^ s' <= Z.pos mx * 2 ^ s') by (apply Z.mul_le_mono_nonneg_r; lia).
        rewrite <- Z.pow_add_r in H0 by lia.
        replace (Zdigits2 (Z.pos mx) - 1 + s') with (Zdigits2 (Z.pos my) + (E - e' - 1)) in H0 by lia. lia. }
      assert (E - e' - 1 < Zdigits2 (N / D)) by (apply (Z.pow_lt_mono_r_iff 2); lia).
      unfold SpecFloat.fexp in *. lia.
  - unfold N, D.
    replace (Z.pos mx * 2 ^ s' * 2 ^ Z.max 0 (e' - emin) * Z.pos my)
      with (Z.pos mx * Z.pos my * (2 ^ s' * 2 ^ Z.max 0 (e' - emin))) by ring.
    replace (Z.pos mx * 2 ^ (- emin) * (Z.pos my * 2 ^ Z.max 0 (emin - e')))
      with (Z.pos mx * Z.pos my * (2 ^ (- emin) * 2 ^ Z.max 0 (emin - e'))) by ring.
    f_equal. rewrite <- !Z.pow_add_r by lia. f_equal. unfold s'. lia.
Qed.

(** ** Numbers with the same value *)

Lemma canonical s m e : is_float (S754_finite s m e) -> e = Z.max (Zdigits2 (Zpos m) + e - prec) emin /\ e <= emax - prec.
Proof.
  unfold IeeeSpec.is_float, valid_binary, bounded, canonical_mantissa. intros F. apply andb_prop in F. destruct F as [F1 F2].
  apply Zeq_bool_eq in F1. apply Z.leb_le in F2. unfold SpecFloat.fexp in F1. cbn [Zdigits2]. lia.
Qed.

Lemma units_inj x y : is_number x -> is_number y -> negative x = negative y -> units x = units y -> x = y.
Proof.
  intros [Fx Nx] [Fy Ny] S E.
  assert (P : forall s m e, is_float (S754_finite s m e) -> units (S754_finite s m e) <> 0).
  { intros s m e F. destruct (canonical _ _ _ F). cbn [IeeeSpec.units]. pose proof (pow2_pos (e - emin) ltac:(lia)). destruct s; nia. }
  destruct x as [s|s| |s m e], y as [s'|s'| |s' m' e']; try discriminate Nx; try discriminate Ny; cbn [negative] in S; subst s'.
  - reflexivity.
  - exfalso. apply (P _ _ _ Fy). rewrite <- E. reflexivity.
  - exfalso. apply (P _ _ _ Fx). rewrite E. reflexivity.
  - destruct (canonical _ _ _ Fx) as [C1 C2]. destruct (canonical _ _ _ Fy) as [C3 C4]. cbn [IeeeSpec.units] in E.
    assert (E' : Zpos m * 2 ^ (e - emin) = Zpos m' * 2 ^ (e' - emin)) by (destruct s; lia).
    pose proof (f_equal Zdigits2 E') as D. rewrite !digits_shift in D by lia.
    assert (e = e') by lia. subst e'. f_equal. pose proof (pow2_pos (e - emin) ltac:(lia)). nia.
Qed.

(** ** The even one of two *)

Lemma grid_member s A B g w : 0 <= A -> 0 < B -> is_grid prec A B g -> ~ too_large A B -> closest (sign s * A) B w ->
  exists c, 0 <= c <= 2 ^ prec /\ units w = sign s * (c * 2 ^ g) /\ even_mantissa w = Z.even c /\ g <= emax - prec - emin.
Proof.
  intros HA HB (G0 & G1 & G2) NT [W C]. destruct (emin_neg prec emax Hprec Hmax) as [En1 En2].
  assert (Pg := pow2_pos g G0). assert (Pp := pow2_pos (prec - 1) ltac:(lia)).
  assert (P1 : 2 ^ prec = 2 * 2 ^ (prec - 1)) by (rewrite <- Z.pow_succ_r by lia; f_equal; lia).
  assert (P2 : 2 ^ (prec + 1) = 2 * 2 ^ prec) by (rewrite <- Z.pow_succ_r by lia; f_equal; lia).
  assert (GM : g <= emax - prec - emin).
  { destruct (Z.le_gt_cases g (emax - prec - emin)) as [L|L]; [exact L|]. exfalso. apply NT. unfold IeeeSpec.too_large.
    rewrite Z.abs_eq by lia. specialize (G2 ltac:(lia)).
    assert (2 ^ (prec + (emax - prec - emin)) <= 2 ^ (g + prec - 1)) by (apply Z.pow_le_mono_r; lia).
    rewrite Z.pow_add_r in H by lia. pose proof (pow2_pos (emax - prec - emin) ltac:(lia)). nia. }
  assert (Z0 := C (S754_zero false) ltac:(split; reflexivity)). cbn [IeeeSpec.units] in Z0.
  destruct W as [F N]. destruct w as [s'|s'| |s' m e]; try discriminate N.
  { exists 0. cbn [IeeeSpec.units even_mantissa]. repeat split; try lia. }
  destruct (canonical _ _ _ F) as [C1 C2]. set (h := e - emin) in *. assert (Ph := pow2_pos h ltac:(lia)).
  assert (s' = s) as ->.
  { cbn [IeeeSpec.units] in Z0. fold h in Z0. destruct s, s'; cbn [sign] in Z0; try reflexivity; exfalso; nia. }
  assert (U : units (S754_finite s m e) = sign s * (Zpos m * 2 ^ h)) by reflexivity. rewrite U in *.
  assert (D := digits_pos m). change (Zpos (digits2_pos m)) with (Zdigits2 (Zpos m)) in D.
  assert (Q : forall c k, 0 <= c < 2 ^ prec -> 0 <= k <= emax - prec - emin ->
    Z.abs (Zpos m * 2 ^ h * B - A) <= Z.abs (c * 2 ^ k * B - A)).
  { intros c k H1 H2. destruct (representable_signed prec emax Hprec Hmax (sign s * (c * 2 ^ k)) c k H1 H2) as (x & X & E).
    - pose proof (pow2_pos k ltac:(lia)) as Pk. assert (0 <= c * 2 ^ k) by (apply Z.mul_nonneg_nonneg; lia). clear - H. destruct s; cbn [sign]; lia.
    - specialize (C x X). rewrite E in C. clear - C. destruct s; cbn [sign] in C; lia. }
  destruct (Z.lt_trichotomy h g) as [L|[L|L]].
  - exfalso. specialize (Q (2 ^ (prec - 1)) g ltac:(lia) ltac:(lia)). specialize (G2 ltac:(lia)).
    replace (g + prec - 1) with (prec - 1 + g) in G2 by lia. rewrite Z.pow_add_r in G2 by lia.
    assert (Zpos m * 2 ^ h < 2 ^ (prec - 1) * 2 ^ g).
    { apply Z.lt_le_trans with (2 ^ prec * 2 ^ h).
      - apply Z.mul_lt_mono_pos_r; [exact Ph|]. assert (2 ^ Zdigits2 (Zpos m) <= 2 ^ prec) by (apply Z.pow_le_mono_r; lia). lia.
      - rewrite <- !Z.pow_add_r by lia. apply Z.pow_le_mono_r; lia. }
    assert (Zpos m * 2 ^ h * B < 2 ^ (prec - 1) * 2 ^ g * B) by (apply Z.mul_lt_mono_pos_r; assumption). clear - Q G2 H0. lia.
  - exists (Zpos m). rewrite L. repeat split; try lia.
    assert (2 ^ Zdigits2 (Zpos m) <= 2 ^ prec) by (apply Z.pow_le_mono_r; lia). lia.
  - assert (DP : Zdigits2 (Zpos m) = prec) by lia. rewrite DP in D.
    specialize (Q (2 ^ (prec - 1)) (g + 1) ltac:(lia) ltac:(lia)).
    rewrite <- Z.pow_add_r in Q by lia. replace (prec - 1 + (g + 1)) with (g + prec) in Q by lia.
    assert (LE : Zpos m * 2 ^ h <= 2 ^ (g + prec)) by (clear - Q G1 HB; nia).
    assert (2 ^ (prec - 1) * 2 ^ h <= 2 ^ (g + prec)) by (clear - LE D Ph; nia). rewrite <- Z.pow_add_r in H by lia.
    apply Z.pow_le_mono_r_iff in H; try lia. assert (HG : h = g + 1) by lia.
    rewrite HG in *. replace (g + prec) with (prec - 1 + (g + 1)) in LE by lia. rewrite (Z.pow_add_r 2 (prec - 1)) in LE by lia.
    assert (EM : Zpos m = 2 ^ (prec - 1)) by (apply Z.mul_le_mono_pos_r in LE; [clear - LE D; lia|exact Ph]). exists (2 ^ prec). repeat split; try lia.
    + rewrite EM. f_equal. rewrite <- !Z.pow_add_r by lia. f_equal. lia.
    + cbn [even_mantissa]. rewrite EM, !Z.even_pow by lia. reflexivity.
Qed.

(** [r] is a number closest to [sign s * A / B] and even if there is another one *)
Definition to_even (s : bool) (A B : Z) (r : spec_float) : Prop :=
  closest (sign s * A) B r /\ (forall w, closest (sign s * A) B w -> units w <> units r -> even_mantissa r = true).

Lemma rounds_even s A B r : 0 <= A -> 0 < B -> ~ too_large A B -> rounds s A B r -> to_even s A B r /\ negative r = s.
Proof.
  intros HA HB NT (g & G & R & S). split; [|exact S].
  pose proof (rounded_intro prec emax Hprec Hmax s A B g r HA HB G R) as [_ [[T _]|[_ C]]]; [contradiction|].
  change (closest (sign s * A) B r) in C. split; [exact C|]. intros w W NE.
  destruct (grid_member s A B g r HA HB G NT C) as (c & _ & U & -> & GM).
  destruct (grid_member s A B g w HA HB G NT W) as (c' & _ & U' & _ & _).
  destruct R as [_ R]. pose proof (overflow_iff prec emax Hprec Hmax A B g HA HB G) as O.
  destruct (Z.ltb_spec (rne A (B * 2 ^ g) * 2 ^ g) (2 ^ (emax - emin))) as [L|L]; [|tauto]. destruct R as [_ R].
  assert (Pg := pow2_pos g ltac:(destruct G; lia)).
  assert (c = rne A (B * 2 ^ g)) as -> by (rewrite U in R; destruct s; cbn [sign] in R; nia).
  apply rne_tie with c'; [exact HA|nia| |].
  - intros ->. apply NE. rewrite U, U'. reflexivity.
  - destruct C as [C1 C2], W as [W1 W2]. specialize (C2 w W1). specialize (W2 r C1). rewrite U, U' in C2, W2.
    destruct s; cbn [sign] in C2, W2; nia.
Qed.

Lemma even_unique s A B r w : 0 <= A -> 0 < B -> (exists g, is_grid prec A B g) -> ~ too_large A B ->
  to_even s A B r -> to_even s A B w -> units r = units w.
Proof.
  intros HA HB [g G] NT [R1 R2] [W1 W2]. destruct (Z.eq_dec (units r) (units w)) as [E|NE]; [exact E|]. exfalso.
  specialize (R2 w W1 ltac:(congruence)). specialize (W2 r R1 ltac:(congruence)).
  destruct (grid_member s A B g r HA HB G NT R1) as (c & CB & U & E & GM).
  destruct (grid_member s A B g w HA HB G NT W1) as (c' & CB' & U' & E' & _).
  rewrite E in R2. rewrite E' in W2. assert (Pg := pow2_pos g ltac:(destruct G; lia)).
  apply Z.even_spec in R2, W2. destruct R2 as [a ->], W2 as [b ->].
  assert (M : exists x, is_number x /\ units x = sign s * ((a + b) * 2 ^ g)).
  { assert (a <> b) by (intros ->; apply NE; rewrite U, U'; reflexivity).
    destruct (representable_signed prec emax Hprec Hmax (sign s * ((a + b) * 2 ^ g)) (a + b) g) as (x & X & X'); eauto; try (destruct G; lia).
    destruct s; cbn [sign]; nia. }
  destruct M as (x & X & X'). destruct R1 as [N1 R1], W1 as [N2 W1].
  pose proof (R1 x X). pose proof (R1 w N2). pose proof (W1 r N1). rewrite ?U, ?U', ?X' in *.
  assert (a <> b) by (intros ->; apply NE; reflexivity).
  assert (D : Z.abs (2 * a * 2 ^ g * B - A) = Z.abs (2 * b * 2 ^ g * B - A)) by (destruct s; cbn [sign] in *; lia).
  assert (D' : Z.abs (2 * a * 2 ^ g * B - A) <= Z.abs ((a + b) * 2 ^ g * B - A)) by (destruct s; cbn [sign] in *; lia).
  set (T := 2 ^ g * B) in *. assert (HT : 0 < T) by (apply Z.mul_pos_pos; assumption).
  replace (2 * a * 2 ^ g * B) with (2 * a * T) in * by (unfold T; ring).
  replace (2 * b * 2 ^ g * B) with (2 * b * T) in * by (unfold T; ring).
  replace ((a + b) * 2 ^ g * B) with ((a + b) * T) in * by (unfold T; ring).
  assert (NAB : a * T <> b * T) by (intros X0; apply H2; apply (Z.mul_cancel_r a b T); [lia|exact X0]).
  clear - D D' NAB. rewrite Z.mul_add_distr_r in D'. replace (2 * a * T) with (a * T + a * T) in * by ring.
  replace (2 * b * T) with (b * T + b * T) in * by ring. lia.
Qed.

Lemma to_even_scale s A B A' B' r : 0 < B -> 0 < B' -> A * B' = A' * B -> to_even s A B r -> to_even s A' B' r.
Proof.
  intros HB HB' E. assert (S : forall w, closest (sign s * A) B w <-> closest (sign s * A') B' w).
  { assert (P : forall u, Z.abs (u * B - sign s * A) * B' = Z.abs (u * B' - sign s * A') * B).
    { intros u. rewrite <- (Z.abs_eq B') at 1 by lia. rewrite <- (Z.abs_eq B) at 2 by lia. rewrite <- !Z.abs_mul. f_equal.
      rewrite !Z.mul_sub_distr_r. f_equal; [ring|]. rewrite <- !Z.mul_assoc, E. reflexivity. }
    intros w. split; intros [N H]; split; auto; intros u Hu; specialize (H u Hu); pose proof (P (units u)); pose proof (P (units w)); nia. }
  intros [C T]. split; [apply S, C|]. intros w W. apply T, S, W.
Qed.
End Rounds.
