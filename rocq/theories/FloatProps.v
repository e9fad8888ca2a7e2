(** * Properties C62-C63: arithmetic and comparison of floating point numbers *)
From Coq Require Import ZArith Bool List SpecFloat Lia.
From Verif Require Import IntsModel ArithModel FloatModel IeeeSpec IeeeProofs FloatSpec FloatProofs.
From Verif Require Import LangModel PolicyModel LoopModel LocalModel LocalSpec LocalProps ExampleMem.
Import ListNotations.
Open Scope Z_scope.

(** ** C62: checked arithmetic *)

Lemma format_result n1 n2 : integer n1 && integer n2 = false -> result_format n1 n2 = Some (format_of n1 n2).
Proof. destruct n1 as [? ?|[] ?], n2 as [? ?|[] ?]; cbn; intros; try discriminate; reflexivity. Qed.

Lemma checked_outcome R a b r : is_rounding (fprec R) (femax R) a (b * step R) r ->
  has_result R a b (checked r (Some (isfinite r))).
Proof.
  intros H. apply rounding_outcome in H. destruct (isfinite r); cbn; auto.
Qed.

Section Finite.
Variables (n1 n2 : num).
Hypothesis A1 : argument n1.
Hypothesis A2 : argument n2.
Hypothesis F1 : finite n1 = true.
Hypothesis F2 : finite n2 = true.
Hypothesis HF : integer n1 && integer n2 = false.
Let R := format_of n1 n2.

Lemma args_converted : exists x y, to_format R n1 = x /\ to_format R n2 = y /\
  is_number (fprec R) (femax R) x /\ is_number (fprec R) (femax R) y /\ converted R n1 x /\ converted R n2 y.
Proof.
  destruct (result_cases n1 n2 R (format_result n1 n2 HF)) as [C1 C2].
  destruct (to_format_converted R n1 A1 F1 C1). destruct (to_format_converted R n2 A2 F2 C2).
  do 2 eexists. repeat split; eauto; try apply H; try apply H0; try apply H1; try apply H2.
Qed.

(** An integer and a floating point number: nothing is checked, and nothing needs to be. *)
Lemma mixed_finite s : (s = 1 \/ s = -1) -> integer n1 || integer n2 = true ->
  ~ overflows R (fvalue R (to_format R n1) + s * fvalue R (to_format R n2)) 1.
Proof.
  intros Hs HM. destruct args_converted as (x & y & E1 & E2 & N1 & N2 & _).
  destruct n1 as [t z|f u] eqn:D1.
  - rewrite E2. apply mixed_no_overflow; auto.
  - destruct n2 as [t z|g v] eqn:D2; [|discriminate]. rewrite E1. apply mixed_no_overflow; auto.
Qed.
End Finite.

Lemma written_if_finite R a b r n1 n2 (w : option bool) : is_rounding (fprec R) (femax R) a (b * step R) r ->
  (integer n1 || integer n2 = false -> w = Some (isfinite r)) ->
  (integer n1 || integer n2 = true -> ~ overflows R a b /\ (isfinite r = true -> w = Some true)) ->
  has_result R a b (checked r w).
Proof.
  intros H W1 W2. destruct (integer n1 || integer n2) eqn:E.
  - destruct (W2 eq_refl) as [NO W]. apply rounding_outcome in H. destruct (isfinite r); [|contradiction].
    rewrite (W eq_refl). auto.
  - rewrite (W1 eq_refl). apply checked_outcome; auto.
Qed.

Theorem C62_add n1 n2 :
  argument n1 -> argument n2 -> finite n1 = true -> finite n2 = true -> integer n1 && integer n2 = false ->
  exists x y, converted (format_of n1 n2) n1 x /\ converted (format_of n1 n2) n2 y /\
    has_result (format_of n1 n2) (fvalue (format_of n1 n2) x + fvalue (format_of n1 n2) y) 1 (fadd n1 n2) /\
    (integer n1 || integer n2 = true -> fadd n1 n2 <> Marked).
Proof.
  intros A1 A2 F1 F2 HF. destruct (args_converted n1 n2 A1 A2 F1 F2 HF) as (x & y & E1 & E2 & N1 & N2 & C1 & C2).
  assert (M := mixed_finite n1 n2 A1 A2 F1 F2 HF 1 (or_introl eq_refl)). rewrite Z.mul_1_l, E1, E2 in M.
  exists x, y. split; auto. split; auto.
  assert (H : has_result (format_of n1 n2) (fvalue (format_of n1 n2) x + fvalue (format_of n1 n2) y) 1 (fadd n1 n2)).
  { unfold fadd. rewrite format_result, E1, E2 by auto. cbv zeta. apply written_if_finite with n1 n2.
    - apply add_rounding; auto.
    - destruct n1, n2; cbn; try discriminate; auto.
    - intros I. split; auto. intros _. destruct n1, n2; try discriminate; reflexivity. }
  split; auto. intros I Q. rewrite Q in H. cbn in H. apply M; auto.
Qed.
Print Assumptions C62_add.

(** Whether assertions are enabled or not *)
Theorem C62_subtract debug n1 n2 :
  argument n1 -> argument n2 -> finite n1 = true -> finite n2 = true -> integer n1 && integer n2 = false ->
  exists x y, converted (format_of n1 n2) n1 x /\ converted (format_of n1 n2) n2 y /\
    has_result (format_of n1 n2) (fvalue (format_of n1 n2) x - fvalue (format_of n1 n2) y) 1 (fsubtract debug n1 n2) /\
    (integer n1 || integer n2 = true -> fsubtract debug n1 n2 <> Marked).
Proof.
  intros A1 A2 F1 F2 HF. destruct (args_converted n1 n2 A1 A2 F1 F2 HF) as (x & y & E1 & E2 & N1 & N2 & C1 & C2).
  assert (M := mixed_finite n1 n2 A1 A2 F1 F2 HF (-1) (or_intror eq_refl)).
  rewrite E1, E2 in M. replace (fvalue (format_of n1 n2) x + -1 * fvalue (format_of n1 n2) y)
    with (fvalue (format_of n1 n2) x - fvalue (format_of n1 n2) y) in M by lia.
  exists x, y. split; auto. split; auto.
  assert (H : has_result (format_of n1 n2) (fvalue (format_of n1 n2) x - fvalue (format_of n1 n2) y) 1 (fsubtract debug n1 n2)).
  { unfold fsubtract. rewrite format_result, E1, E2 by auto. cbv zeta. apply written_if_finite with n1 n2.
    - apply sub_rounding; auto.
    - destruct n1, n2; cbn; try discriminate; auto.
    - intros I. split; auto. intros Fi. unfold fsubtract_within_range. rewrite Fi, andb_false_r.
      destruct n1, n2; try discriminate; reflexivity. }
  split; auto. intros I Q. rewrite Q in H. cbn in H. apply M; auto.
Qed.
Print Assumptions C62_subtract.

(** The product of two values is in steps of [2 ^ (-1074 - 1074)]. *)
Theorem C62_multiply n1 n2 :
  argument n1 -> argument n2 -> finite n1 = true -> finite n2 = true -> integer n1 && integer n2 = false ->
  exists x y, converted (format_of n1 n2) n1 x /\ converted (format_of n1 n2) n2 y /\
    has_result (format_of n1 n2) (fvalue (format_of n1 n2) x * fvalue (format_of n1 n2) y) one (fmultiply n1 n2).
Proof.
  intros A1 A2 F1 F2 HF. destruct (args_converted n1 n2 A1 A2 F1 F2 HF) as (x & y & E1 & E2 & N1 & N2 & C1 & C2).
  exists x, y. split; auto. split; auto. unfold fmultiply. rewrite format_result, E1, E2 by auto. cbv zeta.
  apply checked_outcome, mul_rounding; auto.
Qed.
Print Assumptions C62_multiply.

Theorem C62_divide n1 n2 :
  argument n1 -> argument n2 -> finite n1 = true -> finite n2 = true -> integer n1 && integer n2 = false ->
  exists x y, converted (format_of n1 n2) n1 x /\ converted (format_of n1 n2) n2 y /\
    if value n2 =? 0 then fdivide n1 n2 = Marked
    else fvalue (format_of n1 n2) y <> 0 /\
         has_result (format_of n1 n2) (Z.sgn (fvalue (format_of n1 n2) y) * fvalue (format_of n1 n2) x * one)
           (Z.abs (fvalue (format_of n1 n2) y)) (fdivide n1 n2).
Proof.
  intros A1 A2 F1 F2 HF. destruct (args_converted n1 n2 A1 A2 F1 F2 HF) as (x & y & E1 & E2 & N1 & N2 & C1 & C2).
  exists x, y. split; auto. split; auto. unfold fdivide. rewrite format_result, E1, E2 by auto. cbv zeta.
  assert (D := domain_zero n2 A2 F2). destruct (result_cases n1 n2 _ (format_result n1 n2 HF)) as [_ K2].
  assert (Zr := nearest_zero_iff n2 (format_of n1 n2) A2 F2 K2). rewrite E2 in Zr.
  destruct (Z.eqb_spec (value n2) 0) as [V|V].
  - apply D in V. rewrite V. reflexivity.
  - destruct (fdivide_within_domain n2); [|exfalso; apply V, D; auto].
    assert (NZ : fvalue (format_of n1 n2) y <> 0) by tauto. split; auto.
    apply checked_outcome, div_rounding; auto.
Qed.
Print Assumptions C62_divide.

(** Integers of at most 24 or 53 bits keep their value, too. *)
Theorem C62_small_integers R t z x : Z.abs z <= 2 ^ fprec R -> converted R (NInt t z) x -> fvalue R x = value (NInt t z).
Proof.
  intros Hz [C _]. apply nearest_iff in C. rewrite Z.mul_1_l in C.
  assert (P := fprec_gt R). assert (M := fprec_lt R). assert (EM := emin_neg _ _ P M). assert (W := wide_enough R).
  assert (S := step_pos R). cbn [value] in *. rewrite <- (emin_unit R), Z.mul_assoc in *.
  set (p := fprec R) in *. set (e := femax R) in *.
  assert (U := pow2_pos (0 - emin p e) ltac:(lia)). assert (Pp := pow2_pos (p - 1) ltac:(lia)).
  assert (P1 : 2 ^ p = 2 * 2 ^ (p - 1)) by (rewrite <- Z.pow_succ_r by lia; f_equal; lia).
  assert (exists w, is_number p e w /\ units p e w = z * 2 ^ (0 - emin p e)) as (w & W1 & W2).
  { destruct (Z.eq_dec (Z.abs z) (2 ^ p)) as [E|E].
    - apply (representable_signed p e P M _ (2 ^ (p - 1)) (1 - emin p e)); [lia|unfold emin in *; lia|].
      rewrite Z.abs_mul, (Z.abs_eq (2 ^ _)) by lia. rewrite E, P1. replace (1 - emin p e) with (1 + (0 - emin p e)) by lia.
      rewrite (Z.pow_add_r 2 1) by lia. lia.
    - apply (representable_signed p e P M _ (Z.abs z) (0 - emin p e)); [lia|unfold emin in *; lia|].
      rewrite Z.abs_mul, (Z.abs_eq (2 ^ _)) by lia. reflexivity. }
  destruct C as [_ C]. specialize (C w W1). rewrite W2, Z.sub_diag, Z.abs_0 in C. unfold fvalue. fold p e. lia.
Qed.
Print Assumptions C62_small_integers.

(** Infinities and NaNs.  Two floating point numbers are marked; so are products and quotients,
    but for a finite number divided by an infinity, which is zero.  The sum of an integer and an
    infinity or NaN is not marked, and their difference fails an assertion. *)
Lemma to_format_not_finite R f x : is_finite x = false -> to_format R (NFloat f x) = x.
Proof. intros H. cbn [to_format]. destruct (fmt_eqb f R); auto. destruct x; auto; discriminate. Qed.
Lemma isfinite_eq x : isfinite x = is_finite x.
Proof. destruct x; reflexivity. Qed.

Lemma add_not_finite p e x y : is_finite x && is_finite y = false -> is_finite (SFadd p e x y) = false.
Proof. destruct x as [[]|[]| |[]], y as [[]|[]| |[]]; cbn; intros; try discriminate; reflexivity. Qed.
Lemma sub_not_finite p e x y : is_finite x && is_finite y = false -> is_finite (SFsub p e x y) = false.
Proof. destruct x as [[]|[]| |[]], y as [[]|[]| |[]]; cbn; intros; try discriminate; reflexivity. Qed.
Lemma mul_not_finite p e x y : is_finite x && is_finite y = false -> is_finite (SFmul p e x y) = false.
Proof. destruct x as [[]|[]| |[]], y as [[]|[]| |[]]; cbn; intros; try discriminate; reflexivity. Qed.

Lemma converted_finite n1 n2 : argument n1 -> argument n2 -> integer n1 && integer n2 = false ->
  is_finite (to_format (format_of n1 n2) n1) = finite n1 /\ is_finite (to_format (format_of n1 n2) n2) = finite n2.
Proof.
  intros A1 A2 HF. destruct (result_cases n1 n2 _ (format_result n1 n2 HF)) as [C1 C2].
  assert (G : forall n, argument n -> (forall f x, n = NFloat f x -> fmt_eqb f (format_of n1 n2) = true \/ format_of n1 n2 = Double) ->
    is_finite (to_format (format_of n1 n2) n) = finite n).
  { intros n A C. destruct (finite n) eqn:F.
    - apply to_format_converted; auto.
    - destruct n as [|f x]; [discriminate|]. cbn [finite] in F. rewrite to_format_not_finite; auto. }
  split; apply G; auto.
Qed.

Theorem C62_not_finite (debug : bool) n1 n2 :
  argument n1 -> argument n2 -> integer n1 && integer n2 = false -> finite n1 && finite n2 = false ->
  fmultiply n1 n2 = Marked /\
  (if integer n1 || integer n2 then
     (exists r, fadd n1 n2 = Written r /\ is_finite r = false) /\
     (if debug then fsubtract debug n1 n2 = AssertionFailed
      else exists r, fsubtract debug n1 n2 = Written r /\ is_finite r = false)
   else fadd n1 n2 = Marked /\ fsubtract debug n1 n2 = Marked).
Proof.
  intros A1 A2 HF NF. destruct (converted_finite n1 n2 A1 A2 HF) as [G1 G2].
  unfold fmultiply, fadd, fsubtract. rewrite format_result by auto. set (R := format_of n1 n2) in *. cbv zeta.
  rewrite <- G1, <- G2 in NF. set (x := to_format R n1) in *. set (y := to_format R n2) in *.
  assert (S1 := add_not_finite (fprec R) (femax R) x y NF). assert (S2 := sub_not_finite (fprec R) (femax R) x y NF).
  assert (S3 := mul_not_finite (fprec R) (femax R) x y NF).
  rewrite (isfinite_eq (SFmul _ _ x y)), S3. split; [reflexivity|].
  rewrite <- isfinite_eq in S1, S2. unfold fadd_within_range, fsubtract_within_range.
  destruct n1 as [t1 z1|f1 x1], n2 as [t2 z2|f2 x2]; try discriminate HF; cbn [integer orb]; fold x y; rewrite ?S1, ?S2; cbn [negb checked];
    rewrite ?andb_true_r.
  1-2: split; [eexists; split; [reflexivity|rewrite <- isfinite_eq; exact S1]
              |destruct debug; [reflexivity|eexists; split; [reflexivity|rewrite <- isfinite_eq; exact S2]]].
  split; reflexivity.
Qed.
Print Assumptions C62_not_finite.

Theorem C62_divide_not_finite n1 n2 :
  argument n1 -> argument n2 -> integer n1 && integer n2 = false -> finite n1 && finite n2 = false ->
  match n2 with
  | NFloat _ (S754_infinity _) =>
      if finite n1 then exists s, fdivide n1 n2 = Written (S754_zero s) else fdivide n1 n2 = Marked
  | _ => fdivide n1 n2 = Marked
  end.
Proof.
  intros A1 A2 HF NF. destruct (converted_finite n1 n2 A1 A2 HF) as [G1 G2].
  unfold fdivide. rewrite format_result by auto. set (R := format_of n1 n2) in *. cbv zeta.
  assert (T2 : finite n2 = false -> forall f v, n2 = NFloat f v -> to_format R n2 = v)
    by (intros F f v ->; apply to_format_not_finite; auto).
  set (x := to_format R n1) in *. set (y := to_format R n2) in *.
  assert (K : is_finite x = false -> is_finite (SFdiv (fprec R) (femax R) x y) = false).
  { intros Fx. destruct x as [[]|[]| |[]], y as [[]|[]| |[]]; cbn in *; try discriminate; reflexivity. }
  destruct (fdivide_within_domain n2) eqn:D.
  - destruct (finite n1) eqn:F1.
    + cbn [andb] in NF. destruct n2 as [t z|f v]; [discriminate|]. cbn [finite] in NF.
      assert (Y : y = v) by (eapply T2; eauto). rewrite Y in *. cbn [finite] in G2.
      destruct v as [s|s| |s m e]; try discriminate NF.
      * destruct x as [sx|sx| |sx mx ex]; try discriminate G1; cbn; eexists; reflexivity.
      * destruct x as [sx|sx| |sx mx ex]; try discriminate G1; reflexivity.
    + rewrite isfinite_eq, (K G1). destruct n2 as [t z|f [s|s| |s m e]]; reflexivity.
  - destruct n2 as [t z|f [s|s| |s m e]]; try reflexivity; cbn in D; destruct s; discriminate.
Qed.
Print Assumptions C62_divide_not_finite.

(** Two rasters of floating point numbers of the same type: what is left unmarked is a result that
    is a number. *)
Definition element_of (R : fmt) (o : operation) (x y : spec_float) : element :=
  match o with
  | Plus => fadd (NFloat R x) (NFloat R y)
  | Minus => fsubtract true (NFloat R x) (NFloat R y)
  | Times => fmultiply (NFloat R x) (NFloat R y)
  | Over => fdivide (NFloat R x) (NFloat R y)
  end.

Lemma element_outcome R o x y :
  element_of R o x y =
    if alg_domain R o x y then if alg_range R o x y (alg R o x y) then Written (alg R o x y) else Marked else Marked.
Proof.
  unfold element_of, fadd, fsubtract, fmultiply, fdivide, alg_domain, alg_range, alg, result_format, checked.
  destruct o, R; cbn [vty_of result_value to_format fmt_eqb fadd_within_range fsubtract_within_range];
    try (destruct (fdivide_within_domain _)); try (destruct (isfinite _)); reflexivity.
Qed.

Theorem C62_rasters R o ip1 ip2 c nd a1 a2 rb m rows cols :
  0 <= rows -> 0 <= cols -> a1 <> rb -> a2 <> rb ->
  (forall i, 0 <= i < rows * cols ->
     arg_exists ip1 a1 m i /\ arg_exists ip2 a2 m i /\ result_exists (MarkByMask c nd) rb m i) ->
  exists m', run (binary_2d_2d (alg R o) (alg_domain R o) (alg_range R o) ip1 ip2 (MarkByMask c nd) a1 a2 rb cols
                    (whole2 rows cols)) m = Some (tt, m') /\
    forall i, 0 <= i < rows * cols -> mmsk m c i = Some (negb nd) ->
      mmsk m' c i = Some (negb nd) <->
      exists x y r, arg_at ip1 a1 m i = Some x /\ arg_at ip2 a2 m i = Some y /\
        element_of R o x y = Written r /\ mval m' rb i = Some r /\ is_finite r = true.
Proof.
  intros Hr Hc H1 H2 Hex.
  destruct (C05_binary_2d_2d (alg R o) (alg_domain R o) (alg_range R o) ip1 ip2 (MarkByMask c nd) a1 a2 rb m rows cols
    Hr Hc I H1 H2 Hex) as (m' & Run & H & _).
  exists m'. split; auto. intros i Hi Hm. destruct (H i Hi) as [HV HM]. specialize (HM c eq_refl). rewrite Hm in HM. cbn [option_map] in HM.
  destruct (Hex i Hi) as (_ & _ & E3 & _). destruct (mval m rb i) as [old|] eqn:OV; [|contradiction]. cbn [option_map] in HV.
  rewrite HV, HM. unfold binary_outcome.
  destruct (arg_at ip1 a1 m i) as [x|]; [destruct (arg_at ip2 a2 m i) as [y|]|].
  - pose proof (element_outcome R o x y) as EO. destruct (alg_domain R o x y); [destruct (alg_range R o x y (alg R o x y)) eqn:AR|].
    + cbn [final_mask final_value]. split; auto. intros _. exists x, y, (alg R o x y). repeat split; auto.
    + cbn [final_mask]. split; [destruct nd; discriminate|]. intros (x' & y' & r & X & Y & E & _). inversion X; inversion Y; subst.
      rewrite EO in E. discriminate.
    + cbn [final_mask]. split; [destruct nd; discriminate|]. intros (x' & y' & r & X & Y & E & _). inversion X; inversion Y; subst.
      rewrite EO in E. discriminate.
  - cbn [final_mask]. split; [destruct nd; discriminate|]. intros (x' & y' & r & X & Y & _). discriminate.
  - cbn [final_mask]. split; [destruct nd; discriminate|]. intros (x' & y' & r & X & _). discriminate.
Qed.
Print Assumptions C62_rasters.

(** *** Cases *)
Definition f32_max := S754_finite false 16777215 104.   (* 3.4e38 *)
Definition f32_one := S754_finite false 8388608 (-23).
Definition f32_third := S754_finite false 11184811 (-25). (* 1.0f / 3.0f *)
Definition f32_nan := S754_nan.

(** 3.4e38f + 3.4e38f overflows; adding the largest 64-bit integer to 3.4e38f does not; an integer of
    25 bits is rounded; 1 / 3 is rounded; division by zero is marked. *)
Example C62_case :
  (argument (NFloat Single f32_max) /\ argument (NInt U64 18446744073709551615) /\ argument (NFloat Single f32_third)) /\
  fadd (NFloat Single f32_max) (NFloat Single f32_max) = Marked /\
  fadd (NInt U64 18446744073709551615) (NFloat Single f32_max) = Written f32_max /\
  fadd (NInt S32 16777217) (NFloat Single (S754_zero false)) = Written (S754_finite false 8388608 1) /\
  fsubtract true (NFloat Double (S754_finite false 4503599627370496 (-52))) (NFloat Single f32_one) = Written (S754_zero false) /\
  fmultiply (NFloat Single f32_third) (NInt S8 (-3)) = Written (S754_finite true 8388608 (-23)) /\
  fdivide (NFloat Single f32_one) (NInt U8 3) = Written f32_third /\
  fdivide (NInt U8 1) (NFloat Single (S754_zero true)) = Marked /\
  fdivide (NFloat Single f32_max) (NFloat Single (S754_finite false 8388608 (-25))) = Marked.
Proof. split; [repeat split; vm_compute; congruence|]. vm_compute. repeat split. Qed.

(** "What is not a number is marked" is false of sums of integers and floating point numbers; for
    differences the assertion fails instead. *)
Theorem C62_mixed_refuted :
  exists n1 n2, argument n1 /\ argument n2 /\ integer n1 || integer n2 = true /\
    fadd n1 n2 = Written f32_nan /\ fsubtract true n1 n2 = AssertionFailed /\ fsubtract false n1 n2 = Written f32_nan.
Proof. exists (NInt S32 1), (NFloat Single f32_nan). repeat split; vm_compute; congruence. Qed.
Print Assumptions C62_mixed_refuted.

Example C62_rasters_case :
  let m := mem_of [[f32_one; f32_max; f32_one; f32_one]; [f32_third; f32_max; S754_nan; S754_zero true]; [f32_nan; f32_nan; f32_nan; f32_nan]]
                  [[false; false; false; false]] in
  let r o := run (binary_2d_2d (alg Single o) (alg_domain Single o) (alg_range Single o) (SkipNoData (V := spec_float)) SkipNoData
                   (MarkByMask 0 true) 0 1 2 2 (whole2 2 2)) m in
  mask_of (r Plus) 0 4 = [Some false; Some true; Some true; Some false] /\
  mask_of (r Over) 0 4 = [Some false; Some false; Some true; Some true].
Proof. vm_compute. split; reflexivity. Qed.

(** ** C63: comparison *)

Lemma compare_order f x y : is_float (fprec f) (femax f) x -> is_float (fprec f) (femax f) y -> is_nan x = false -> is_nan y = false ->
  exists c, SFcompare x y = Some c /\ match c with Lt => below f x y | Eq => alike f x y | Gt => below f y x end.
Proof.
  intros X Y NX NY. destruct (is_finite x) eqn:FX, (is_finite y) eqn:FY.
  - rewrite (SFcompare_spec (fprec f) (femax f)) by (auto using fprec_gt, fprec_lt; split; auto). eexists. split; [reflexivity|].
    pose proof (step_pos f). unfold below, alike, fvalue.
    assert (rank x = 0) by (destruct x; auto; discriminate). assert (rank y = 0) by (destruct y; auto; discriminate).
    destruct (Z.compare_spec (units (fprec f) (femax f) x) (units (fprec f) (femax f) y)) as [E|E|E].
    + split; [lia|]. intros _. rewrite E. reflexivity.
    + right. repeat split; auto. nia.
    + right. repeat split; auto. nia.
  - destruct y as [sy|[]| |sy my ey]; try discriminate; destruct x as [sx|[]| |sx mx ex]; try discriminate; cbn; eexists; (split; [reflexivity|]); left; cbn; lia.
  - destruct x as [sx|[]| |sx mx ex]; try discriminate; destruct y as [sy|[]| |sy my ey]; try discriminate; cbn; eexists; (split; [reflexivity|]); left; cbn; lia.
  - destruct x as [sx|[]| |sx mx ex]; try discriminate; destruct y as [sy|[]| |sy my ey]; try discriminate; cbn; eexists; (split; [reflexivity|]);
      try (left; cbn; lia); (split; [reflexivity|]); cbn; lia.
Qed.

Lemma order_exclusive f x y : ~ (below f x y /\ alike f x y) /\ ~ (below f x y /\ below f y x) /\ ~ (below f y x /\ alike f x y).
Proof.
  unfold below, alike. repeat split; intros [A B]; destruct A as [A|(A1 & A2 & A3)]; try (destruct B as [B|B]); lia.
Qed.

Lemma compared_args n1 n2 : argument n1 -> argument n2 -> integer n1 && integer n2 = false -> nan n1 = false -> nan n2 = false ->
  let R := format_of n1 n2 in
  (is_float (fprec R) (femax R) (to_format R n1) /\ is_nan (to_format R n1) = false /\ compared R n1 (to_format R n1)) /\
  (is_float (fprec R) (femax R) (to_format R n2) /\ is_nan (to_format R n2) = false /\ compared R n2 (to_format R n2)).
Proof.
  intros A1 A2 HF N1 N2 R. destruct (result_cases n1 n2 R (format_result n1 n2 HF)) as [C1 C2].
  assert (G : forall n, argument n -> nan n = false -> (forall f x, n = NFloat f x -> fmt_eqb f R = true \/ R = Double) ->
    is_float (fprec R) (femax R) (to_format R n) /\ is_nan (to_format R n) = false /\ compared R n (to_format R n)).
  { intros n A N C. unfold compared. destruct (finite n) eqn:F.
    - destruct (to_format_converted R n A F C) as [[X1 X2] X3]. repeat split; auto; try apply X3. destruct (to_format R n); auto; discriminate.
    - destruct n as [|f x]; [discriminate|]. cbn [finite nan] in *. rewrite to_format_not_finite by auto.
      repeat split; auto; [destruct x; auto; discriminate|]. destruct f; auto. }
  split; apply G; auto.
Qed.

(** The comparisons are those of the values in the common type. *)
Theorem C63_compare n1 n2 :
  argument n1 -> argument n2 -> integer n1 && integer n2 = false -> nan n1 = false -> nan n2 = false ->
  exists x y, compared (format_of n1 n2) n1 x /\ compared (format_of n1 n2) n2 y /\
    exists l le g ge, fless n1 n2 = Some l /\ fless_equal n1 n2 = Some le /\ fgreater n1 n2 = Some g /\ fgreater_equal n1 n2 = Some ge /\
      (l = true <-> below (format_of n1 n2) x y) /\
      (le = true <-> below (format_of n1 n2) x y \/ alike (format_of n1 n2) x y) /\
      (g = true <-> below (format_of n1 n2) y x) /\
      (ge = true <-> below (format_of n1 n2) y x \/ alike (format_of n1 n2) x y).
Proof.
  intros A1 A2 HF N1 N2. destruct (compared_args n1 n2 A1 A2 HF N1 N2) as [(X1 & X2 & X3) (Y1 & Y2 & Y3)].
  set (R := format_of n1 n2) in *. set (x := to_format R n1) in *. set (y := to_format R n2) in *.
  exists x, y. split; auto. split; auto. unfold fless, fless_equal, fgreater, fgreater_equal, fcompare. rewrite format_result by auto.
  fold R x y. do 4 eexists. do 4 (split; [reflexivity|]).
  destruct (compare_order R x y X1 Y1 X2 Y2) as (c & C1 & C2). destruct (compare_order R y x Y1 X1 Y2 X2) as (d & D1 & D2).
  unfold SFltb, SFleb. rewrite C1, D1. destruct (order_exclusive R x y) as (O1 & O2 & O3). destruct (order_exclusive R y x) as (P1 & P2 & P3).
  assert (S : alike R x y <-> alike R y x) by (unfold alike; split; intros [? ?]; split; intros; lia).
  destruct c, d; repeat split; intros Q; try discriminate; auto; try tauto.
Qed.
Print Assumptions C63_compare.

Theorem C63_equal f x y : is_float (fprec f) (femax f) x -> is_float (fprec f) (femax f) y -> is_nan x = false -> is_nan y = false ->
  fequal f x y = true <-> alike f x y.
Proof.
  intros X Y NX NY. destruct (compare_order f x y X Y NX NY) as (c & C1 & C2). unfold fequal, SFeqb. rewrite C1.
  destruct (order_exclusive f x y) as (O1 & O2 & O3). destruct c; split; intros Q; try discriminate; auto; tauto.
Qed.
Print Assumptions C63_equal.

(** Nothing is equal to, less than or greater than NaN, NaN itself included. *)
Theorem C63_nan n1 n2 : integer n1 && integer n2 = false -> nan n1 || nan n2 = true ->
  fless n1 n2 = Some false /\ fless_equal n1 n2 = Some false /\ fgreater n1 n2 = Some false /\ fgreater_equal n1 n2 = Some false.
Proof.
  intros HF N. unfold fless, fless_equal, fgreater, fgreater_equal, fcompare. rewrite format_result by auto. set (R := format_of n1 n2).
  assert (K : forall n, nan n = true -> to_format R n = S754_nan).
  { intros [|f x] H; [discriminate|]. destruct x; try discriminate. rewrite to_format_not_finite; reflexivity. }
  destruct (nan n1) eqn:M1.
  - rewrite (K n1 M1). unfold SFltb, SFleb. destruct (to_format R n2) as [[]|[]| |[] ? ?]; repeat split.
  - rewrite (K n2 N). unfold SFltb, SFleb. destruct (to_format R n1) as [[]|[]| |[] ? ?]; repeat split.
Qed.
Print Assumptions C63_nan.
Theorem C63_nan_equal f x : fequal f x S754_nan = false /\ fequal f S754_nan x = false.
Proof. destruct x as [[]|[]| |[] ? ?]; split; reflexivity. Qed.
Print Assumptions C63_nan_equal.

(** Arguments that keep their value are compared by their values: floating point numbers and
    integers of at most 24 bits (53 bits, if the other is a double). *)
Definition keeps_value (R : fmt) (n : num) : Prop :=
  match n with NInt _ z => Z.abs z <= 2 ^ fprec R | NFloat _ _ => True end.

Theorem C63_values n1 n2 :
  argument n1 -> argument n2 -> integer n1 && integer n2 = false -> finite n1 = true -> finite n2 = true ->
  keeps_value (format_of n1 n2) n1 -> keeps_value (format_of n1 n2) n2 ->
  fless n1 n2 = Some (value n1 <? value n2) /\ fless_equal n1 n2 = Some (value n1 <=? value n2) /\
  fgreater n1 n2 = Some (value n1 >? value n2) /\ fgreater_equal n1 n2 = Some (value n1 >=? value n2).
Proof.
  intros A1 A2 HF F1 F2 K1 K2.
  destruct (args_converted n1 n2 A1 A2 F1 F2 HF) as (x & y & E1 & E2 & X & Y & C1 & C2).
  unfold fless, fless_equal, fgreater, fgreater_equal, fcompare. rewrite format_result by auto. set (R := format_of n1 n2) in *. rewrite E1, E2.
  assert (V : forall n w, converted R n w -> keeps_value R n -> fvalue R w = value n).
  { intros [t z|f u] w C K; [eapply C62_small_integers; eauto|]. destruct C as [_ C]. apply C. reflexivity. }
  rewrite <- (V n1 x C1 K1), <- (V n2 y C2 K2). unfold SFltb, SFleb.
  rewrite !(SFcompare_spec (fprec R) (femax R)) by (auto using fprec_gt, fprec_lt). unfold fvalue. pose proof (step_pos R) as S.
  set (u := units (fprec R) (femax R) x). set (v := units (fprec R) (femax R) y).
  destruct (Z.compare_spec u v) as [C|C|C], (Z.compare_spec v u) as [D|D|D]; try lia; repeat split; f_equal; symmetry; rewrite ?Z.gtb_ltb, ?Z.geb_leb;
    first [apply Z.ltb_lt; nia|apply Z.ltb_ge; nia|apply Z.leb_le; nia|apply Z.leb_gt; nia].
Qed.
Print Assumptions C63_values.

(** "Comparisons compare the values" is false of larger integers: 16777217 is not greater than
    16777216.0f, and it is less than or equal to it. *)
Theorem C63_rounded_refuted :
  exists n1 n2, argument n1 /\ argument n2 /\ value n1 > value n2 /\ fgreater n1 n2 = Some false /\ fless_equal n1 n2 = Some true.
Proof.
  exists (NInt S32 16777217), (NFloat Single (S754_finite false 8388608 1)). repeat split; vm_compute; congruence.
Qed.
Print Assumptions C63_rounded_refuted.

Example C63_case :
  fless (NInt S8 (-1)) (NFloat Single (S754_zero true)) = Some true /\
  fless (NFloat Single f32_third) (NFloat Double (S754_finite false 6004799503160661 (-54))) = Some false /\
  fless (NFloat Double (S754_finite false 6004799503160661 (-54))) (NFloat Single f32_third) = Some true /\
  fequal Single (S754_zero true) (S754_zero false) = true /\
  fgreater (NFloat Double (S754_infinity false)) (NInt U64 18446744073709551615) = Some true.
Proof. vm_compute. repeat split. Qed.
