(** * Decimal numbers and doubles *)

From Coq Require Import ZArith SpecFloat.
From Verif Require Import FloatModel IeeeSpec FloatSpec.
Open Scope Z_scope.

(** The decimal number [d * 10 ^ k] is [steps d k / parts k] steps of [2 ^ -1074]. *)
Definition steps (d k : Z) : Z := if 0 <=? k then d * 10 ^ k * one else d * one.
Definition parts (k : Z) : Z := if 0 <=? k then 1 else 10 ^ (- k).

(** At most six digits *)
Definition six (d : Z) : Prop := 0 <= d < 10 ^ 6.

(** No decimal number of six digits is closer to [v] steps than [d * 10 ^ k]. *)
Definition closest_of_six (v d k : Z) : Prop :=
  six d /\ forall d' k', six d' ->
    Z.abs (steps d k - v * parts k) * parts k' <= Z.abs (steps d' k' - v * parts k') * parts k.

(** The sign of a double, and whether its mantissa is even *)
Definition negative (x : spec_float) : bool :=
  match x with S754_zero s | S754_infinity s | S754_finite s _ _ => s | S754_nan => false end.
Definition sign (s : bool) : Z := if s then -1 else 1.
Definition even_mantissa (x : spec_float) : bool :=
  match x with S754_finite _ m _ => Z.even (Zpos m) | _ => true end.

(** [x] is the double that a decimal number, [s] for negative, stands for: the nearest one and, of
    two, the even one.  There is none if the number is too large. *)
Definition stands_for (s : bool) (d k : Z) (x : spec_float) : Prop :=
  negative x = s /\ ~ overflows Double (steps d k) (parts k) /\ nearest Double (sign s * steps d k) (parts k) x /\
  (forall w, nearest Double (sign s * steps d k) (parts k) w -> fvalue Double w <> fvalue Double x -> even_mantissa x = true).
