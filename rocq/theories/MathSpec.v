(** * Where the mathematical functions are defined *)
From Coq Require Import ZArith Bool SpecFloat.
From Verif Require Import IntsModel FloatModel IeeeSpec FloatSpec.
Open Scope Z_scope.

(** Not below zero; not beyond one; a whole number *)
Definition at_least_zero (f : fmt) (x : spec_float) : Prop :=
  x = S754_infinity false \/ (is_finite x = true /\ 0 <= fvalue f x).
Definition at_most_one (f : fmt) (x : spec_float) : Prop :=
  is_finite x = true /\ Z.abs (fvalue f x) <= one.
Definition whole (f : fmt) (x : spec_float) : Prop :=
  is_finite x = true /\ exists n, fvalue f x = n * one.

(** A function of the C library that returns NaN exactly outside of its domain [D] *)
Definition nan_outside (f : fmt) (D : spec_float -> Prop) (g : spec_float -> spec_float) : Prop :=
  forall x, is_float (fprec f) (femax f) x -> (is_nan (g x) = false <-> D x).

(** [v!] *)
Fixpoint factorial (n : nat) : Z := match n with O => 1 | S k => Z.of_nat n * factorial k end.

(** No number of the format is closer to the root of [v] than [r]: for each other number [w],
    the root lies on the side of [r] of the number halfway between them.  The root of [v] steps of
    [2 ^ -1074] has the square [v * one]. *)
Definition nearest_root (f : fmt) (v : Z) (r : spec_float) : Prop :=
  is_number (fprec f) (femax f) r /\ 0 <= fvalue f r /\
  forall w, is_number (fprec f) (femax f) w -> 0 <= fvalue f w ->
    (fvalue f w < fvalue f r -> (fvalue f r + fvalue f w) ^ 2 <= 4 * (v * one)) /\
    (fvalue f r < fvalue f w -> 4 * (v * one) <= (fvalue f r + fvalue f w) ^ 2).

(** What is assumed of [std::tgamma]: it is exact at the whole numbers from 1 to 21, where the
    factorials are [double]s; it does not get smaller after that; it is infinite at zero; and at
    whole numbers below zero it is not a number. *)
Definition is_tgamma (tgamma : spec_float -> spec_float) : Prop :=
  (forall x n, is_number 53 1024 x -> fvalue Double x = Z.of_nat (S n) * one -> (n <= 20)%nat ->
     is_number 53 1024 (tgamma x) /\ fvalue Double (tgamma x) = factorial n * one) /\
  (forall x, is_number 53 1024 x -> 22 * one <= fvalue Double x ->
     tgamma x = S754_infinity false \/
     (is_number 53 1024 (tgamma x) /\ factorial 21 * one <= fvalue Double (tgamma x))) /\
  tgamma (S754_zero false) = S754_infinity false /\
  (forall x n, is_number 53 1024 x -> fvalue Double x = n * one -> n < 0 -> tgamma x = S754_nan).

(** What is assumed of [std::round]: it leaves whole numbers alone, makes numbers of numbers, and only
    of numbers. *)
Definition is_round (f : fmt) (round : spec_float -> spec_float) : Prop :=
  (forall x, is_float (fprec f) (femax f) x -> whole f x -> round x = x) /\ (forall x, is_float (fprec f) (femax f) x -> is_finite (round x) = is_finite x).
