(** * IEEE numbers as whole numbers of the smallest step

    The operations on binary floating point numbers are those of the standard library,
    [Coq.Floats.SpecFloat]; this file says what the numbers stand for. *)
From Coq Require Import ZArith Bool SpecFloat.
Open Scope Z_scope.

Section Ieee.
(** [prec] is the number of bits of the mantissa (24, 53), [emax] the exponent of infinity (128, 1024). *)
Variables (prec emax : Z).

Definition is_finite (x : spec_float) : bool :=
  match x with S754_zero _ | S754_finite _ _ _ => true | _ => false end.
Definition is_nan (x : spec_float) : bool := match x with S754_nan => true | _ => false end.

(** A finite number as a multiple of the smallest positive number, [2 ^ emin]. *)
Definition units (x : spec_float) : Z :=
  match x with
  | S754_finite s m e => (if s then -1 else 1) * (Zpos m * 2 ^ (e - emin prec emax))
  | _ => 0
  end.

(** A number of the format *)
Definition is_float (x : spec_float) : Prop := valid_binary prec emax x = true.
Definition is_number (x : spec_float) : Prop := is_float x /\ is_finite x = true.

(** [r] is a number that is closest to [a / b] units. *)
Definition closest (a b : Z) (r : spec_float) : Prop :=
  is_number r /\ forall w, is_number w -> Z.abs (units r * b - a) <= Z.abs (units w * b - a).

(** [a / b] units are too much: at least halfway from the largest number to [2 ^ emax]. *)
Definition too_large (a b : Z) : Prop :=
  b * ((2 ^ (prec + 1) - 1) * 2 ^ (emax - prec - emin prec emax)) <= 2 * Z.abs a.

(** The number 1 in units *)
Definition unit : Z := 2 ^ (- emin prec emax).
End Ieee.
