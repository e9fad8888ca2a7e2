(** * Model of clamping floating point numbers, and of their sign

    Models [algorithm/core/clamp.h], [core/detail/clamp.h] and [core/sign.h] for floating point
    numbers.  The functions for arrays and rasters are those of [CoreModel], with the [<] of
    floating point numbers: [clamp_value] there is [boost::algorithm::clamp], which asserts that
    the upper bound is not less than the lower one. *)
From Coq Require Import ZArith SpecFloat.
Open Scope Z_scope.

(** detail/clamp.h:37-46 and the same lines in the other functions: the comparison that
    [boost::algorithm::clamp] uses, [std::less] *)
Definition float_less (x y : spec_float) : bool := SFltb x y.

(** sign.h:27-35, 38-45: [x >= 0 ? 1 : -1] *)
Definition float_sign (x : spec_float) : Z := if SFleb (S754_zero false) x then 1 else -1.
