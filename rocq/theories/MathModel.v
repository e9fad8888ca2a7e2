(** * Domain and range policies of the mathematical functions

    Models the policies and algorithms of
    [algorithm/algebra/elementary/{sqrt,log,log2,log10,pow,tgamma,factorial}.h] and
    [algorithm/trigonometry/{sin,cos,tan,asin,acos}.h] on the numbers of [FloatModel].

    The functions of the C library ([std::log] and so on) are parameters; what theorems assume
    about them is in their statements.  [std::sqrt] is the one of [SpecFloat]. *)

From Coq Require Import ZArith Bool SpecFloat.
From Verif Require Import IntsModel FloatModel IeeeSpec.
Open Scope Z_scope.

(** [Value(1)] *)
Definition fone (f : fmt) : spec_float := to_format f (NInt S32 1).
Definition fminus_one (f : fmt) : spec_float := to_format f (NInt S32 (-1)).
Definition fzero : spec_float := S754_zero false.

(** core/unary_local_operation.h:36-61: domain policy, algorithm, range policy; [None] is
    undefined behaviour *)
Definition apply_unary (dom : option bool) (r : spec_float) (rng : bool) : option element :=
  match dom with
  | None => None
  | Some false => Some Marked
  | Some true => Some (checked r (Some rng))
  end.

(** sqrt.h:40-44, detail/sqrt.h; log.h:32-36, log10.h:32-36, log2.h:32-36 and their details; no range policy *)
Definition not_negative (x : spec_float) : bool := SFleb fzero x.
Definition fsqrt (f : fmt) (x : spec_float) : option element :=
  apply_unary (Some (not_negative x)) (SFsqrt (fprec f) (femax f) x) true.
Definition flog (log : spec_float -> spec_float) (x : spec_float) : option element :=
  apply_unary (Some (not_negative x)) (log x) true.

(** asin.h:41-48, acos.h:41-48 *)
Definition within_one (f : fmt) (x : spec_float) : bool := SFleb (fminus_one f) x && SFleb x (fone f).
Definition farc (f : fmt) (arc : spec_float -> spec_float) (x : spec_float) : option element :=
  apply_unary (Some (within_one f x)) (arc x) true.

(** sin.h:38-42, cos.h:38-42 *)
Definition fsine (sine : spec_float -> spec_float) (x : spec_float) : option element :=
  apply_unary (Some (isfinite x)) (sine x) true.

(** core/type_traits.h:474-479: [half_pi<float>()], [half_pi<double>()]; Boost's constants are the nearest numbers *)
Definition half_pi (f : fmt) : spec_float :=
  match f with
  | Single => S754_finite false 13176795 (-23)
  | Double => S754_finite false 7074237752028440 (-52)
  end.

(** [std::remainder(value, half_pi) == 0].  [remainder] is [value - n * half_pi] for the whole
    number [n] nearest to the quotient, and exact, so it is zero exactly if [half_pi] divides
    [value].  Simplification: only whether it is zero is modelled. *)
Definition remainder_is_zero (f : fmt) (x : spec_float) : bool :=
  units (fprec f) (femax f) x mod units (fprec f) (femax f) (half_pi f) =? 0.

(** Conversion of a floating point number to an integer type: the fraction is dropped; undefined
    behaviour if the rest does not fit.  Infinities and NaNs do not fit. *)
Definition truncated (f : fmt) (x : spec_float) : Z :=
  Z.quot (units (fprec f) (femax f) x) (unit (fprec f) (femax f)).
Definition to_int (f : fmt) (t : ity) (x : spec_float) : option Z :=
  if isfinite x && (imin t <=? truncated f x) && (truncated f x <=? imax t) then Some (truncated f x) else None.

(** tan.h:42-62 *)
Definition tan_domain (f : fmt) (x : spec_float) : option bool :=
  if negb (isfinite x) then Some false
  else if negb (remainder_is_zero f x) then Some true
  else match to_int f S64 (SFdiv (fprec f) (femax f) x (half_pi f)) with
       | Some q => Some (Z.rem q 2 =? 0)
       | None => None
       end.
Definition ftan (f : fmt) (tan : spec_float -> spec_float) (x : spec_float) : option element :=
  apply_unary (tan_domain f x) (tan x) true.

(** [std::modf(x, &integral) != 0]: NaN has the fraction NaN, which is not equal to 0; infinities
    have the fraction 0. *)
Definition has_fraction (f : fmt) (x : spec_float) : bool :=
  match x with
  | S754_nan => true
  | S754_infinity _ => false
  | _ => negb (units (fprec f) (femax f) x mod unit (fprec f) (femax f) =? 0)
  end.

(** pow.h:45-62 *)
Definition pow_domain (f : fmt) (base exponent : spec_float) : bool :=
  if SFltb base fzero then negb (has_fraction f exponent)
  else if SFeqb base fzero && SFltb exponent fzero then false
  else true.
(** pow.h:88-95, detail/pow.h:31-40 *)
Definition fpow (f : fmt) (pow : spec_float -> spec_float -> spec_float) (base exponent : spec_float) : element :=
  if pow_domain f base exponent then checked (pow base exponent) (Some (isfinite (pow base exponent))) else Marked.

(** [std::trunc(x) == x]: [trunc] drops the fraction, which is exact; so this says that there is
    none.  NaN is not equal to itself. *)
Definition trunc_equal (f : fmt) (x : spec_float) : bool := negb (has_fraction f x).

(** tgamma.h:40-44, 70-75 *)
Definition tgamma_domain (f : fmt) (x : spec_float) : bool := SFleb fzero x || negb (trunc_equal f x).
Definition ftgamma (f : fmt) (tgamma : spec_float -> spec_float) (x : spec_float) : option element :=
  apply_unary (Some (tgamma_domain f x)) (tgamma x) (isfinite (tgamma x)).

(** ** Factorial *)

(** detail/factorial.h:50-63, 110-126, 131-147, for floating point numbers *)
Definition ffactorial (f : fmt) (tgamma round : spec_float -> spec_float) (x : spec_float) : option element :=
  let r := round (tgamma (SFadd (fprec f) (femax f) x (fone f))) in
  apply_unary (Some (SFleb fzero x && trunc_equal f x)) r (isfinite r).

(** [std::round] of a finite number: the nearest whole number, halves away from zero *)
Definition rounded_half_away (f : fmt) (x : spec_float) : Z :=
  let u := units (fprec f) (femax f) x in
  let one := unit (fprec f) (femax f) in
  Z.sgn u * ((2 * Z.abs u + one) / (2 * one)).

Inductive int_element := IWritten (z : Z) | IMarked | IUndefined.

Section Factorial.
(** [std::tgamma(double)] *)
Variable tgamma : spec_float -> spec_float.
(** What the conversion of a number that does not fit into the type does: undefined behaviour, or
    some value as the processor at hand calculates it.  Signed overflow is undefined behaviour, or wraps
    around. *)
Variable cast : option (spec_float -> Z).
Variable wrapv : bool.

(** detail/factorial.h:144: [std::tgamma(value + Value{1})], and line 104, [value + 1] *)
Definition gamma_of (t : ity) (v : Z) : option spec_float :=
  match arith wrapv (promote t) (v + 1) with
  | Some z => Some (tgamma (to_format Double (NInt (promote t) z)))
  | None => None
  end.

(** detail/factorial.h:144: [static_cast<Value>(std::round(...))] *)
Definition factorial_value (t : ity) (g : spec_float) : option Z :=
  if isfinite g && (imin t <=? rounded_half_away Double g) && (rounded_half_away Double g <=? imax t)
  then Some (rounded_half_away Double g)
  else match cast with Some c => Some (c g) | None => None end.

(** detail/factorial.h:104: [std::round(...) <= std::numeric_limits<Result>::max()], as [double]s *)
Definition factorial_within_range (t : ity) (g : spec_float) : bool :=
  match g with
  | S754_nan => false
  | S754_infinity s => s
  | _ => rounded_half_away Double g * unit (fprec Double) (femax Double) <=?
         units (fprec Double) (femax Double) (to_format Double (NInt t (imax t)))
  end.

(** detail/factorial.h:34-47, 131-147; core/unary_local_operation.h:42-60: the domain policy, the algorithm and the range policy, in this
    order *)
Definition ifactorial (t : ity) (v : Z) : int_element :=
  if 0 <=? v then
    match gamma_of t v with
    | None => IUndefined
    | Some g =>
        match factorial_value t g with
        | None => IUndefined
        | Some r => if factorial_within_range t g then IWritten r else IMarked
        end
    end
  else IMarked.
End Factorial.
