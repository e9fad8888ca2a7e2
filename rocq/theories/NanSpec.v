(** * When a floating point number is no-data *)
From Coq Require Import ZArith SpecFloat.
From Verif Require Import LangModel PolicyModel LocalSpec IntsModel FloatModel IeeeSpec FloatSpec.

(** The element is the no-data value: neither is NaN, and they have the same value. *)
Definition matches (f : fmt) (v nd : spec_float) : Prop :=
  is_nan v = false /\ is_nan nd = false /\ alike f v nd.

(** Whether an operation that detects the no-data value finds it, where another one, that marks
    with it, had outcome [o]. *)
Definition found (f : fmt) (nd : spec_float) (o : outcome spec_float) : Prop :=
  match o with
  | Value r => matches f r nd
  | _ => is_nan nd = false
  end.
