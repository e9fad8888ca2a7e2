(** * What rounding to whole numbers should give *)
From Coq Require Import ZArith Bool SpecFloat.
From Verif Require Import LangModel PolicyModel LocalSpec IntsModel FloatModel IeeeSpec FloatSpec WholeModel.
Open Scope Z_scope.

(** The sign of a number; zero has one, too *)
Definition minus (x : spec_float) : bool :=
  match x with S754_zero s | S754_infinity s | S754_finite s _ _ => s | S754_nan => false end.

(** The whole number [z] that belongs to the value [v], which is in steps of which [one] make 1 *)
Definition whole_of (o : rounding_op) (v z : Z) : Prop :=
  match o with
  | OFloor => z * one <= v < (z + 1) * one
  | OCeil => (z - 1) * one < v <= z * one
  | OTrunc => Z.abs z * one <= Z.abs v < (Z.abs z + 1) * one
  | ORound => 2 * Z.abs (z * one - v) <= one /\ (2 * Z.abs (z * one - v) = one -> Z.abs v < Z.abs (z * one))
  | OAbsolute => True
  end.

(** What an element [x] should become *)
Definition rounds_to (f : fmt) (o : rounding_op) (x r : spec_float) : Prop :=
  match o with
  | OAbsolute => (x = S754_nan -> r = S754_nan) /\ (x <> S754_nan -> minus r = false /\ (r = x \/ r = SFopp x))
  | _ =>
      if is_finite x then
        is_number (fprec f) (femax f) r /\ minus r = minus x /\ exists z, fvalue f r = z * one /\ whole_of o (fvalue f x) z
      else r = x
  end.

(** What element [i] of the result should be *)
Definition element_rounded (f : fmt) (o : rounding_op) (ip : inpol spec_float) (a : buf) (m : mem spec_float) (i : Z) (out : outcome spec_float) : Prop :=
  match arg_at ip a m i with
  | None => out = NoData
  | Some x => exists r, out = Value r /\ rounds_to f o x r
  end.
