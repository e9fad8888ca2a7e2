(** * Properties of the mathematical functions *)
From Coq Require Import ZArith Lia Bool List SpecFloat.
From Verif Require Import IntsModel FloatModel IeeeSpec FloatSpec IeeeProofs FloatProofs MathModel MathSpec MathProofs.
Open Scope Z_scope.

(** ** C64: domains and ranges of the functions *)

(** The square root: NaN and numbers below zero are marked, everything else gets the nearest number to the root. *)
Theorem C64_sqrt f x : is_float (fprec f) (femax f) x ->
  (~ at_least_zero f x -> fsqrt f x = Some Marked) /\
  (x = S754_infinity false -> fsqrt f x = Some (Written x)) /\
  (is_finite x = true -> 0 <= fvalue f x -> exists r, fsqrt f x = Some (Written r) /\ nearest_root f (fvalue f x) r).
Proof.
  intros F. unfold fsqrt, apply_unary, checked. pose proof (not_negative_spec f x F) as S. split; [|split].
  - intros H. destruct (not_negative x); auto. exfalso. apply H, S. reflexivity.
  - intros ->. reflexivity.
  - intros N V. rewrite (proj2 S) by (right; auto). exists (SFsqrt (fprec f) (femax f) x). split; auto.
    destruct x as [s|s| |[] m e]; try discriminate N.
    + (* zero *) cbn [SFsqrt]. unfold nearest_root. assert (Z0 : fvalue f (S754_zero s) = 0) by (unfold fvalue; reflexivity). rewrite Z0.
      split; [apply zero_number|]. split; [lia|]. intros w W W0. split; intros; [lia|]. rewrite Z.mul_0_l, Z.mul_0_r. apply Z.pow_nonneg. lia.
    + exfalso. assert (fvalue f (S754_finite true m e) < 0); [|lia]. apply fvalue_sign. cbn [units].
      pose proof (pow2_pos (e - emin (fprec f) (femax f)) ltac:(pose proof (finite_exponent _ _ _ _ _ F); lia)). nia.
    + destruct (SFsqrt_spec _ _ (fprec_gt f) (fprec_lt f) m e F) as (R1 & R2 & R3). set (r := SFsqrt (fprec f) (femax f) (S754_finite false m e)) in *.
      split; auto. split; [apply fvalue_sign; auto|]. intros w W W0. destruct (R3 w W) as [A B]; [apply fvalue_sign in W0; auto|].
      rewrite !fvalue_lt.
      assert (E1 : (fvalue f r + fvalue f w) ^ 2 = (units (fprec f) (femax f) r + units (fprec f) (femax f) w) * (units (fprec f) (femax f) r + units (fprec f) (femax f) w) * (step f * step f)) by (unfold fvalue; ring).
      assert (E2 : 4 * (fvalue f (S754_finite false m e) * one) = 4 * (units (fprec f) (femax f) (S754_finite false m e) * unit (fprec f) (femax f)) * (step f * step f)) by (rewrite <- (unit_step f); unfold fvalue; ring).
      rewrite E1, E2. pose proof (step_pos f). split; intros Y; apply Z.mul_le_mono_nonneg_r; auto; apply Z.mul_nonneg_nonneg; lia.
Qed.
Print Assumptions C64_sqrt.

(** In particular, roots that are numbers are exact. *)
Corollary C64_sqrt_exact f x w r : is_float (fprec f) (femax f) x -> is_finite x = true -> is_number (fprec f) (femax f) w ->
  0 <= fvalue f w -> fvalue f x * one = fvalue f w * fvalue f w -> fsqrt f x = Some (Written r) -> fvalue f r = fvalue f w.
Proof.
  intros F N W W0 E R. assert (V : 0 <= fvalue f x) by (pose proof one_pos; nia).
  destruct (C64_sqrt f x F) as (_ & _ & S). destruct (S N V) as (r' & R' & Q1 & Q2 & Q3). rewrite R in R'. injection R' as <-.
  destruct (Q3 w W W0) as [A B]. rewrite E in A, B. destruct (Z.lt_trichotomy (fvalue f r) (fvalue f w)) as [L|[L|L]]; auto.
  - specialize (B L). nia.
  - specialize (A L). nia.
Qed.
Print Assumptions C64_sqrt_exact.

(** Logarithms, if the C library gives NaN exactly for NaN and for numbers below zero: the elements that
    would be NaN are marked. *)
Theorem C64_log f log x : nan_outside f (at_least_zero f) log -> is_float (fprec f) (femax f) x ->
  flog log x = Some (if is_nan (log x) then Marked else Written (log x)).
Proof.
  intros H F. unfold flog, apply_unary, checked. specialize (H x F). rewrite <- (not_negative_spec f x F) in H.
  destruct (not_negative x), (is_nan (log x)); auto; try (destruct H as [H1 H2]); try (specialize (H2 eq_refl); discriminate); specialize (H1 eq_refl); discriminate.
Qed.
Print Assumptions C64_log.

(** The inverse sine and cosine *)
Theorem C64_arc f arc x : nan_outside f (at_most_one f) arc -> is_float (fprec f) (femax f) x ->
  farc f arc x = Some (if is_nan (arc x) then Marked else Written (arc x)).
Proof.
  intros H F. unfold farc, apply_unary, checked. specialize (H x F). rewrite <- (within_one_spec f x F) in H.
  destruct (within_one f x), (is_nan (arc x)); auto; try (destruct H as [H1 H2]); try (specialize (H2 eq_refl); discriminate); specialize (H1 eq_refl); discriminate.
Qed.
Print Assumptions C64_arc.

(** Sine and cosine *)
Theorem C64_sine f sine x : nan_outside f (fun x => is_finite x = true) sine -> is_float (fprec f) (femax f) x ->
  fsine sine x = Some (if is_nan (sine x) then Marked else Written (sine x)).
Proof.
  intros H F. unfold fsine, apply_unary, checked. specialize (H x F). cbv beta in H. change (isfinite x) with (is_finite x).
  destruct (is_finite x), (is_nan (sine x)); auto; try (destruct H as [H1 H2]); try (specialize (H2 eq_refl); discriminate); specialize (H1 eq_refl); discriminate.
Qed.
Print Assumptions C64_sine.

(** The power: an element is marked exactly if the result is not finite, unless the base is minus infinity. *)
Theorem C64_pow f pow base exponent :
  (forall x y, is_finite x = true -> fvalue f x < 0 -> is_float (fprec f) (femax f) x -> is_float (fprec f) (femax f) y ->
     (is_finite y = true -> ~ whole f y -> pow x y = S754_nan) /\ (y = S754_nan -> pow x y = S754_nan)) ->
  (forall s y, is_float (fprec f) (femax f) y -> below f y fzero -> is_nan y = false -> exists s', pow (S754_zero s) y = S754_infinity s') ->
  is_float (fprec f) (femax f) base -> is_float (fprec f) (femax f) exponent -> base <> S754_infinity true ->
  fpow f pow base exponent = if is_finite (pow base exponent) then Written (pow base exponent) else Marked.
Proof.
  intros H1 H2 Fb Fe Nb. unfold fpow, checked. change (isfinite (pow base exponent)) with (is_finite (pow base exponent)).
  destruct (pow_domain f base exponent) eqn:D; [destruct (is_finite _); reflexivity|].
  assert (is_finite (pow base exponent) = false); [|rewrite H; auto].
  unfold pow_domain in D. destruct (SFltb base fzero) eqn:L.
  - apply negb_false_iff in D. destruct (is_finite base) eqn:N.
    + apply (ltb_number f) in L; [|split; auto|apply zero_number]. rewrite zero_fvalue in L.
      destruct (H1 base exponent N L Fb Fe) as [A B]. destruct (is_finite exponent) eqn:Ne.
      * rewrite A; auto. intros W. apply has_fraction_spec in W; auto. congruence.
      * destruct exponent as [|s| |]; try discriminate Ne; [discriminate D|]. rewrite B; auto.
    + destruct base as [|[]| |]; try discriminate N; [congruence|discriminate L|discriminate L].
  - destruct (SFeqb base fzero && SFltb exponent fzero) eqn:C; [|discriminate]. apply andb_prop in C. destruct C as [C1 C2].
    assert (Nb' : is_finite base = true) by (destruct base as [|[]| |]; auto; discriminate C1).
    apply (eqb_number f) in C1; [|split; auto|apply zero_number]. rewrite zero_fvalue in C1.
    assert (exists s, base = S754_zero s) as [s ->].
    { destruct base as [s| | |s m e]; try discriminate Nb'; [eauto|]. exfalso. apply fvalue_sign in C1. cbn [units] in C1.
      pose proof (pow2_pos (e - emin (fprec f) (femax f)) ltac:(pose proof (finite_exponent _ _ _ _ _ Fb); lia)). destruct s; nia. }
    destruct (H2 s exponent Fe) as [s' ->]; auto.
    + destruct exponent as [|[]| |s' m e]; try discriminate C2; [left; reflexivity|right]. split; [reflexivity|]. split; [reflexivity|].
      apply (ltb_number f); auto; [split; auto|apply zero_number].
    + destruct exponent; auto; discriminate C2.
Qed.
Print Assumptions C64_pow.

(** The gamma function, if the C library gives NaN for minus infinity and the whole numbers below
    zero: an element is marked exactly if the result is not finite. *)
Theorem C64_tgamma f tgamma x :
  tgamma (S754_infinity true) = S754_nan -> (forall x, is_float (fprec f) (femax f) x -> whole f x -> fvalue f x < 0 -> tgamma x = S754_nan) ->
  is_float (fprec f) (femax f) x ->
  ftgamma f tgamma x = Some (if is_finite (tgamma x) then Written (tgamma x) else Marked).
Proof.
  intros H1 H2 F. unfold ftgamma, apply_unary, checked. change (isfinite (tgamma x)) with (is_finite (tgamma x)).
  destruct (tgamma_domain f x) eqn:D; [destruct (is_finite _); reflexivity|].
  assert (tgamma x = S754_nan) as ->; [|reflexivity].
  unfold tgamma_domain, trunc_equal in D. apply orb_false_elim in D. destruct D as [D1 D2]. rewrite negb_involutive in D2.
  destruct (is_finite x) eqn:N.
  - apply H2; auto; [apply has_fraction_spec; auto|]. destruct (Z.lt_ge_cases (fvalue f x) 0) as [L|L]; auto. exfalso.
    assert (SFleb fzero x = true); [|congruence]. apply (leb_number f); auto; [apply zero_number|split; auto].
  - destruct x as [|[]| |]; try discriminate N; [auto|discriminate D1|discriminate D2].
Qed.
Print Assumptions C64_tgamma.

(** Left unmarked: the logarithm of zero, minus infinity. *)
Theorem C64_log_refuted : ~ (forall log x r, log (S754_zero false) = S754_infinity true -> is_float 53 1024 x ->
  flog log x = Some (Written r) -> is_finite r = true).
Proof.
  intros H. discriminate (H (fun x => match x with S754_zero _ => S754_infinity true | _ => S754_nan end) (S754_zero false) (S754_infinity true) eq_refl eq_refl eq_refl).
Qed.
Print Assumptions C64_log_refuted.

(** Marked although defined: a power of minus infinity. *)
Theorem C64_pow_refuted : ~ (forall pow base exponent,
    pow (S754_infinity true) (S754_finite true 4503599627370496 (-53)) = S754_zero false ->
    is_float 53 1024 base -> is_float 53 1024 exponent ->
    fpow Double pow base exponent = Marked -> is_finite (pow base exponent) = false).
Proof.
  intros H. specialize (H (fun _ _ => S754_zero false) (S754_infinity true) (S754_finite true 4503599627370496 (-53)) eq_refl eq_refl eq_refl eq_refl). discriminate H.
Qed.
Print Assumptions C64_pow_refuted.

(** ** C65: tan *)

Theorem C65_tan f tan x : is_float (fprec f) (femax f) x ->
  (is_finite x = false -> ftan f tan x = Some Marked) /\
  (is_finite x = true -> ~ (exists n, fvalue f x = n * fvalue f (half_pi f)) -> ftan f tan x = Some (Written (tan x))) /\
  (forall n, is_finite x = true -> fvalue f x = n * fvalue f (half_pi f) -> - 2 ^ 63 <= n < 2 ^ 63 ->
    ftan f tan x = Some (if Z.even n then Written (tan x) else Marked)) /\
  (forall n, is_finite x = true -> fvalue f x = n * fvalue f (half_pi f) -> ~ (- 2 ^ 63 <= n < 2 ^ 63) -> ftan f tan x = None).
Proof.
  intros F. destruct (tan_domain_spec f x F) as (A & B & C). unfold ftan, apply_unary, checked. split; [|split; [|split]].
  - intros H. rewrite A by auto. reflexivity.
  - intros N H. rewrite B by auto. reflexivity.
  - intros n N H R. rewrite (C n N H). replace ((- 2 ^ 63 <=? n) && (n <? 2 ^ 63)) with true by (symmetry; apply andb_true_intro; split; [apply Z.leb_le|apply Z.ltb_lt]; lia).
    destruct (Z.even n); reflexivity.
  - intros n N H R. rewrite (C n N H). replace ((- 2 ^ 63 <=? n) && (n <? 2 ^ 63)) with false; auto. symmetry. apply andb_false_iff.
    destruct (Z.leb_spec (- 2 ^ 63) n), (Z.ltb_spec n (2 ^ 63)); auto. exfalso. apply R. lia.
Qed.
Print Assumptions C65_tan.

(** So the only finite elements that are marked are one, three, five, seven and nine times the number
    that is nearest to a half pi ([double]), or that number ([float]), and their negatives. *)
Theorem C65_marked f tan x : is_number (fprec f) (femax f) x ->
  ftan f tan x = Some Marked <-> exists n, In n (match f with Single => 1 :: nil | Double => 1 :: 3 :: 5 :: 7 :: 9 :: nil end) /\
    (fvalue f x = n * fvalue f (half_pi f) \/ fvalue f x = - n * fvalue f (half_pi f)).
Proof.
  intros [F N]. destruct (C65_tan f tan x F) as (_ & B & C & D). split.
  - intros M. destruct (remainder_is_zero f x) eqn:R.
    + apply remainder_spec in R. destruct R as [n E].
      assert (Rn : - 2 ^ 63 <= n < 2 ^ 63 \/ ~ (- 2 ^ 63 <= n < 2 ^ 63)) by lia.
      destruct Rn as [Rn|Rn]; [|rewrite (D n N E Rn) in M; discriminate]. rewrite (C n N E Rn) in M.
      destruct (Z.even n) eqn:Ev; [discriminate|]. rewrite <- Z.negb_odd in Ev. apply negb_false_iff in Ev.
      pose proof (odd_multiples f x n (conj F N) E Ev) as L. 
      assert (Ne : forall k, n <> 2 * k) by (intros k ->; rewrite Z.odd_mul in Ev; discriminate).
      pose proof (Ne 0). pose proof (Ne 1). pose proof (Ne 2). pose proof (Ne 3). pose proof (Ne 4).
      pose proof (Ne (-1)). pose proof (Ne (-2)). pose proof (Ne (-3)). pose proof (Ne (-4)).
      exists (Z.abs n). split.
      * destruct f; cbn [In]; lia.
      * destruct (Z.le_ge_cases 0 n); [left; rewrite Z.abs_eq|right; rewrite Z.abs_neq, Z.opp_involutive]; auto.
    + rewrite B in M; auto; [discriminate|]. intros X. apply remainder_spec in X. congruence.
  - intros (n & I & E). assert (Bn : 1 <= n <= 9 /\ Z.even n = false) by (destruct f; cbn [In] in I; intuition (subst; lia || reflexivity)).
    destruct Bn as [Bn Ev]. destruct E as [E|E].
    + rewrite (C n N E) by lia. rewrite Ev. reflexivity.
    + rewrite (C (- n) N E) by lia. rewrite Z.even_opp, Ev. reflexivity.
Qed.
Print Assumptions C65_marked.

(** All of those are numbers. *)
Theorem C65_multiples : forall f n, In n (match f with Single => 1 :: nil | Double => 1 :: 3 :: 5 :: 7 :: 9 :: nil end) ->
  exists x, is_number (fprec f) (femax f) x /\ fvalue f x = n * fvalue f (half_pi f).
Proof.
  intros f n I. assert (K : forall f n, In n (match f with Single => 1 :: nil | Double => 1 :: 3 :: 5 :: 7 :: 9 :: nil end) ->
    let x := binary_normalize (fprec f) (femax f) (n * match f with Single => 13176795 | Double => 884279719003555 end) (match f with Single => -23 | Double => -49 end) false in
    is_number (fprec f) (femax f) x /\ fvalue f x = n * fvalue f (half_pi f)).
  { intros [] m J; cbn [In] in J; repeat (destruct J as [<-|J]); try contradiction; vm_compute; repeat split; reflexivity. }
  eexists. apply (K f n I).
Qed.
Print Assumptions C65_multiples.

(** The behaviour is undefined for multiples with a factor that is not an [int64_t]; there are such. *)
Theorem C65_undefined_refuted tan : ~ (forall x, is_number 53 1024 x -> ftan Double tan x <> None).
Proof. intros H. apply (H (S754_finite false 7074237752028440 11)); [split; reflexivity|]. vm_compute. reflexivity. Qed.
Print Assumptions C65_undefined_refuted.

(** ** C66: factorials *)

Theorem C66_factorial tgamma cast wrapv t v : is_tgamma tgamma -> imin t <= v <= imax t ->
  (v < 0 -> ifactorial tgamma cast wrapv t v = IMarked) /\
  (0 <= v -> factorial (Z.to_nat v) <= imax t -> ifactorial tgamma cast wrapv t v = IWritten (factorial (Z.to_nat v))).
Proof. intros G H. destruct (ifactorial_spec tgamma cast wrapv t v G H) as (A & B & _). auto. Qed.
Print Assumptions C66_factorial.

(** A factorial that does not fit the type: undefined behaviour by the rules of C++; marked, if signed
    integers wrap around and the conversion that does not fit gives just any number. *)
Theorem C66_undefined tgamma wrapv t v : is_tgamma tgamma -> 0 <= v <= imax t -> imax t < factorial (Z.to_nat v) ->
  ifactorial tgamma None wrapv t v = IUndefined.
Proof.
  intros G H F. destruct (ifactorial_spec tgamma None wrapv t v G) as (_ & _ & C). { pose proof (imin_nonpos t). lia. }
  apply C; auto; lia.
Qed.
Print Assumptions C66_undefined.
Theorem C66_marked tgamma c t v : is_tgamma tgamma -> 0 <= v <= imax t -> imax t < factorial (Z.to_nat v) ->
  ifactorial tgamma (Some c) true t v = IMarked.
Proof.
  intros G H F. destruct (ifactorial_spec tgamma (Some c) true t v G) as (_ & _ & C). { pose proof (imin_nonpos t). lia. }
  destruct (C ltac:(lia) F) as [_ C']. apply (C' c); auto.
Qed.
Print Assumptions C66_marked.

(** Floating point numbers *)
Theorem C66_float f tgamma round x : is_round f round -> (forall y, is_float (fprec f) (femax f) y -> is_float (fprec f) (femax f) (tgamma y)) ->
  is_float (fprec f) (femax f) x ->
  let g := tgamma (SFadd (fprec f) (femax f) x (fone f)) in
  (~ (at_least_zero f x /\ (whole f x \/ x = S754_infinity false)) -> ffactorial f tgamma round x = Some Marked) /\
  (at_least_zero f x -> whole f x \/ x = S754_infinity false ->
     ffactorial f tgamma round x = Some (if is_finite g then Written (round g) else Marked)).
Proof.
  intros [_ HR] HG F g.
  assert (D : SFleb fzero x && trunc_equal f x = true <-> at_least_zero f x /\ (whole f x \/ x = S754_infinity false)).
  { rewrite andb_true_iff. fold (not_negative x). rewrite (not_negative_spec f x F). unfold trunc_equal. rewrite negb_true_iff.
    destruct (is_finite x) eqn:N.
    - rewrite (has_fraction_spec f x F N). assert (x <> S754_infinity false) by (intros ->; discriminate). tauto.
    - split; intros [A B]; split; auto.
      + right. destruct A as [A|[A _]]; auto. congruence.
      + destruct B as [[B _]| ->]; [congruence|reflexivity]. }
  assert (Fg : is_float (fprec f) (femax f) g).
  { apply HG. destruct (fone_fvalue f) as [O _]. destruct (is_finite x) eqn:N.
    - pose proof (SFadd_spec _ _ (fprec_gt f) (fprec_lt f) x (fone f) (conj F N) O) as A. apply (rounding_float _ _ _ _ _ A).
    - destruct O as [_ O]. destruct x as [|s| |]; try discriminate N; destruct (fone f); try discriminate O; reflexivity. }
  unfold ffactorial, apply_unary, checked. fold g. change (isfinite (round g)) with (is_finite (round g)). rewrite (HR g Fg). split.
  - intros H. destruct (_ && _); auto. exfalso. apply H, D. reflexivity.
  - intros A B. rewrite (proj2 D) by auto. destruct (is_finite g); reflexivity.
Qed.
Print Assumptions C66_float.

Theorem C66_float_exact tgamma round x n : is_tgamma tgamma -> is_round Double round -> is_number 53 1024 x ->
  fvalue Double x = Z.of_nat n * one -> (n <= 20)%nat ->
  exists r, ffactorial Double tgamma round x = Some (Written r) /\ fvalue Double r = factorial n * one.
Proof.
  intros (G1 & _) [R1 _] [F N] E L. pose proof one_pos as OP. destruct (fone_fvalue Double) as (O1 & O2 & _).
  assert (S : is_number 53 1024 (SFadd 53 1024 x (fone Double)) /\ fvalue Double (SFadd 53 1024 x (fone Double)) = Z.of_nat (S n) * one).
  { pose proof (SFadd_spec 53 1024 ltac:(lia) ltac:(lia) x (fone Double) (conj F N) O1) as A.
    destruct (small_double (Z.of_nat (S n)) ltac:(lia)) as (w & W1 & W2).
    rewrite double_units in *. destruct (rounding_exact 53 1024 ltac:(lia) ltac:(lia) _ 1 _ w ltac:(lia) A W1) as [B1 B2].
    - rewrite W2, E, O2. rewrite Nat2Z.inj_succ. lia.
    - split; [auto|]. congruence. }
  destruct S as [S1 S2]. destruct (G1 _ n S1 S2 L) as [G2 G3].
  unfold ffactorial, apply_unary, checked. cbn [fprec femax].
  assert (D : SFleb fzero x && trunc_equal Double x = true).
  { apply andb_true_intro. split.
    - apply (leb_number Double); [apply zero_number|split; auto|]. rewrite zero_fvalue, E. apply Z.mul_nonneg_nonneg; lia.
    - unfold trunc_equal. apply negb_true_iff, has_fraction_spec; auto. split; auto. eexists; eauto. }
  rewrite D. assert (W : whole Double (tgamma (SFadd 53 1024 x (fone Double)))) by (split; [apply G2|eexists; eauto]).
  rewrite (R1 _ (proj1 G2) W). change (isfinite ?g) with (is_finite g). rewrite (proj2 G2). eauto.
Qed.
Print Assumptions C66_float_exact.

(** ** Cases that meet the hypotheses *)
Definition some_log (x : spec_float) := match x with S754_zero _ => S754_infinity true | S754_infinity false => x | S754_finite false _ _ => S754_zero false | _ => S754_nan end.
Definition some_arc (x : spec_float) := if within_one Double x then x else S754_nan.
Definition some_sine (x : spec_float) := if is_finite x then S754_zero false else S754_nan.
(** [2 ^ 0.5] is written, rounded; [-2] is marked *)
Example C64_case :
  fsqrt Double (S754_finite false 4503599627370496 (-51)) = Some (Written (S754_finite false 6369051672525773 (-52))) /\
  fsqrt Double (S754_finite true 4503599627370496 (-51)) = Some Marked /\
  nan_outside Double (at_least_zero Double) some_log /\ nan_outside Double (at_most_one Double) some_arc /\
  nan_outside Double (fun x => is_finite x = true) some_sine /\
  farc Double some_arc (S754_finite false 4503599627370497 (-52)) = Some Marked.
Proof.
  split; [vm_compute; reflexivity|]. split; [reflexivity|]. split; [|split; [|split]].
  - intros x F. rewrite <- (not_negative_spec Double x F). destruct x as [s|[]| |[] m e]; cbn; split; auto; discriminate.
  - intros x F. rewrite <- (within_one_spec Double x F). unfold some_arc. destruct (within_one Double x) eqn:W; cbn; [|split; auto; discriminate].
    split; auto. intros _. apply (within_one_spec Double x F) in W. destruct W as [W _]. destruct x; auto; discriminate W.
  - intros x F. unfold some_sine. destruct (is_finite x); cbn; split; auto; discriminate.
  - vm_compute. reflexivity.
Qed.

Example C65_case : ftan Double some_sine (S754_finite false 7074237752028440 (-52)) = Some Marked /\
  ftan Double some_sine (S754_finite false 7074237752028440 (-51)) = Some (Written (S754_zero false)) /\
  ftan Double some_sine (S754_finite false 7074237752028441 (-52)) = Some (Written (S754_zero false)).
Proof. vm_compute. repeat split. Qed.

(** A function that is what is assumed of [std::tgamma] *)
Definition some_tgamma (x : spec_float) : spec_float :=
  match x with
  | S754_finite false _ _ =>
      let n := Z.to_nat (units 53 1024 x / unit 53 1024) in
      if (Z.eqb (units 53 1024 x mod unit 53 1024) 0 && (Nat.leb n 21))%bool then to_format Double (NInt S64 (factorial (n - 1))) else S754_infinity false
  | S754_zero s => S754_infinity s
  | _ => S754_nan
  end.
Lemma some_tgamma_is : is_tgamma some_tgamma.
Proof.
  assert (Pos : forall s m e, is_float 53 1024 (S754_finite s m e) -> 0 < Z.pos m * 2 ^ (e - emin 53 1024)).
  { intros s m e F. pose proof (pow2_pos (e - emin 53 1024) ltac:(pose proof (finite_exponent _ _ _ _ _ F); lia)). nia. }
  pose proof one_pos as OP. split; [|split; [|split]].
  - intros x n [F N] E L. rewrite double_units in E. destruct x as [s|s| |s m e]; try discriminate N.
    + cbn [units] in E. nia.
    + destruct s. { exfalso. specialize (Pos _ _ _ F). cbn [units] in E. nia. }
      unfold some_tgamma. rewrite double_one, E, Z.mod_mul, Z.div_mul, Nat2Z.id by lia. cbn [Z.eqb andb].
      assert (Nat.leb (S n) 21 = true) as -> by (apply Nat.leb_le; lia). replace (S n - 1)%nat with n by lia.
      assert (C : (n = 0 \/ n = 1 \/ n = 2 \/ n = 3 \/ n = 4 \/ n = 5 \/ n = 6 \/ n = 7 \/ n = 8 \/ n = 9 \/ n = 10 \/ n = 11 \/ n = 12 \/ n = 13 \/
        n = 14 \/ n = 15 \/ n = 16 \/ n = 17 \/ n = 18 \/ n = 19 \/ n = 20)%nat) by lia. clear E.
      repeat (destruct C as [->|C]; [vm_compute; repeat split; reflexivity|]). subst n. vm_compute; repeat split; reflexivity.
  - intros x [F N] E. rewrite double_units in E. destruct x as [s|s| |s m e]; try discriminate N.
    + cbn [units] in E. lia.
    + destruct s. { exfalso. specialize (Pos _ _ _ F). cbn [units] in E. nia. }
      unfold some_tgamma. rewrite double_one. left. 
      assert (22 <= units 53 1024 (S754_finite false m e) / one) by (apply Z.div_le_lower_bound; lia).
      assert (Nat.leb (Z.to_nat (units 53 1024 (S754_finite false m e) / one)) 21 = false) as -> by (apply Nat.leb_gt; lia).
      rewrite andb_false_r. reflexivity.
  - reflexivity.
  - intros x n [F N] E L. rewrite double_units in E. destruct x as [s|s| |s m e]; try discriminate N.
    + cbn [units] in E. nia.
    + destruct s; [reflexivity|]. exfalso. specialize (Pos _ _ _ F). cbn [units] in E. nia.
Qed.

Example C66_case : ifactorial some_tgamma None false U8 5 = IWritten 120 /\ ifactorial some_tgamma None false U8 6 = IUndefined /\
  ifactorial some_tgamma (Some (fun _ => 208)) true U8 6 = IMarked /\ ifactorial some_tgamma None false S64 20 = IWritten 2432902008176640000 /\
  ifactorial some_tgamma None false S32 (-1) = IMarked.
Proof. vm_compute. repeat split. Qed.

Definition some_pow (x y : spec_float) : spec_float :=
  match x with
  | S754_zero _ => if SFltb y fzero then S754_infinity false else S754_zero false
  | S754_finite true _ _ => if has_fraction Double y then S754_nan else S754_zero false
  | _ => S754_zero false
  end.
Example C64_pow_case :
  (forall x y, is_finite x = true -> fvalue Double x < 0 -> is_float 53 1024 x -> is_float 53 1024 y ->
     (is_finite y = true -> ~ whole Double y -> some_pow x y = S754_nan) /\ (y = S754_nan -> some_pow x y = S754_nan)) /\
  (forall s y, is_float 53 1024 y -> below Double y fzero -> is_nan y = false -> exists s', some_pow (S754_zero s) y = S754_infinity s') /\
  fpow Double some_pow (S754_finite true 4503599627370496 (-51)) (S754_finite false 4503599627370496 (-53)) = Marked /\
  fpow Double some_pow (S754_finite true 4503599627370496 (-51)) (S754_finite false 4503599627370496 (-51)) = Written (S754_zero false).
Proof.
  split; [|split; [|split; vm_compute; reflexivity]].
  - intros x y N V Fx Fy. destruct x as [s|s| |[] m e]; try discriminate N.
    + exfalso. assert (fvalue Double (S754_zero s) = 0) by (unfold fvalue; reflexivity). lia.
    + cbn [some_pow]. split.
      * intros Ny W. destruct (has_fraction Double y) eqn:HF; auto. exfalso. apply W, has_fraction_spec; auto.
      * intros ->. reflexivity.
    + exfalso. apply fvalue_sign in V. cbn [units] in V.
      pose proof (pow2_pos (e - emin (fprec Double) (femax Double)) ltac:(pose proof (finite_exponent _ _ _ _ _ Fx); cbn [fprec femax] in *; lia)). nia.
  - intros s y F B Ny. exists false. cbn [some_pow]. assert (SFltb y fzero = true) as ->; auto.
    destruct y as [s'|[]| |s' m e]; try discriminate Ny.
    + exfalso. destruct B as [B|(_ & _ & B)]; cbn in B; [lia|]. assert (fvalue Double (S754_zero s') = 0) by (unfold fvalue; reflexivity). assert (fvalue Double fzero = 0) by (unfold fvalue; reflexivity). lia.
    + reflexivity.
    + exfalso. destruct B as [B|(B & _)]; cbn in B; lia.
    + apply (ltb_number Double); [split; auto|apply zero_number|]. destruct B as [B|(_ & _ & B)]; auto. cbn in B. lia.
Qed.

Example C66_float_case : is_round Double (fun x => x) /\
  ffactorial Double some_tgamma (fun x => x) (S754_finite false 6755399441055744 (-51)) = Some (Written (S754_finite false 6755399441055744 (-50))) /\
  ffactorial Double some_tgamma (fun x => x) (S754_finite false 7881299347898368 (-51)) = Some Marked.
Proof. split; [split; auto|]. vm_compute. split; reflexivity. Qed.
