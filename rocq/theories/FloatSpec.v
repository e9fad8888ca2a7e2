(** * What the results of floating point operations should be *)
From Coq Require Import ZArith Bool SpecFloat.
From Verif Require Import IntsModel FloatModel IeeeSpec.
Open Scope Z_scope.

(** All integers, [float]s and [double]s are whole multiples of [2 ^ -1074].  The value of a
    number, in those steps *)
Definition one : Z := 2 ^ 1074.
Definition step (f : fmt) : Z := match f with Single => 2 ^ 925 | Double => 1 end.
Definition fvalue (f : fmt) (x : spec_float) : Z := units (fprec f) (femax f) x * step f.
Definition value (n : num) : Z :=
  match n with NInt _ z => z * one | NFloat f x => fvalue f x end.

(** An argument: an integer within the range of its type, a floating point number of its type *)
Definition argument (n : num) : Prop :=
  match n with
  | NInt t z => imin t <= z <= imax t
  | NFloat f x => is_float (fprec f) (femax f) x
  end.
Definition finite (n : num) : bool := match n with NInt _ _ => true | NFloat _ x => is_finite x end.
Definition integer (n : num) : bool := match n with NInt _ _ => true | NFloat _ _ => false end.

(** No number of the format is closer to [a / b] than [r]. *)
Definition nearest (f : fmt) (a b : Z) (r : spec_float) : Prop :=
  is_number (fprec f) (femax f) r /\
  forall w, is_number (fprec f) (femax f) w -> Z.abs (fvalue f r * b - a) <= Z.abs (fvalue f w * b - a).

(** [a / b] is beyond the largest number of the format, by half of a step of that number or more:
    IEEE 754 calls this overflow. *)
Definition largest (f : fmt) : Z :=
  match f with Single => (2 ^ 24 - 1) * 2 ^ 104 * one | Double => (2 ^ 53 - 1) * 2 ^ 971 * one end.
Definition largest_step (f : fmt) : Z := match f with Single => 2 ^ 104 * one | Double => 2 ^ 971 * one end.
Definition overflows (f : fmt) (a b : Z) : Prop := (2 * largest f + largest_step f) * b <= 2 * Z.abs a.

(** The argument in the type of the result: floating point numbers keep their value, integers
    become the nearest number. *)
Definition converted (R : fmt) (n : num) (x : spec_float) : Prop :=
  nearest R (value n) 1 x /\ (integer n = false -> fvalue R x = value n).

(** The type of the result of an operation on two arguments, one of which at least is a floating
    point number: a double if there is one. *)
Definition is_double (n : num) : bool := match n with NFloat Double _ => true | _ => false end.
Definition format_of (n1 n2 : num) : fmt := if is_double n1 || is_double n2 then Double else Single.

(** What should happen to an element whose result is [a / b]: it is marked exactly if the result
    overflows, and holds the nearest number otherwise. *)
Definition has_result (R : fmt) (a b : Z) (e : element) : Prop :=
  match e with
  | Written r => nearest R a b r /\ ~ overflows R a b
  | Marked => overflows R a b
  | AssertionFailed | NotFloat => False
  end.

(** The order of floating point numbers, infinities included; NaN is not ordered. *)
Definition rank (x : spec_float) : Z :=
  match x with S754_infinity true => -1 | S754_infinity false => 1 | _ => 0 end.
Definition below (f : fmt) (x y : spec_float) : Prop :=
  rank x < rank y \/ (rank x = 0 /\ rank y = 0 /\ fvalue f x < fvalue f y).
Definition alike (f : fmt) (x y : spec_float) : Prop :=
  rank x = rank y /\ (rank x = 0 -> fvalue f x = fvalue f y).
Definition nan (n : num) : bool := match n with NFloat _ x => is_nan x | _ => false end.

(** The argument in the type of the comparison *)
Definition compared (R : fmt) (n : num) (x : spec_float) : Prop :=
  if finite n then converted R n x else n = NFloat Single x \/ n = NFloat Double x.
