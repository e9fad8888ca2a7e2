(** * Model of rounding to whole numbers

    Models [algorithm/algebra/elementary/{floor,ceil,trunc,round,absolute}.h] and their
    [detail] headers for floating point numbers; absolute values of integers are in
    [ArithModel].  The functions of the C library they call are modelled as the C standard
    (F.10.6.1, F.10.6.2, F.10.6.6, F.10.6.8 and F.10.4.3 of its annex F) describes them: on the
    mantissa and the exponent, keeping the sign.

    Simplifications: those of [FloatModel] (one kind of NaN). *)
From Coq Require Import ZArith Bool SpecFloat.
From Verif Require Import IntsModel FloatModel.
Open Scope Z_scope.

Section Format.
Variable f : fmt.

(** The whole number with sign [s] and magnitude [q] *)
Definition whole_number (s : bool) (q : Z) : spec_float :=
  match q with
  | Zpos p => binary_round (fprec f) (femax f) s p 0
  | _ => S754_zero s
  end.

(** A number with a negative exponent: its magnitude is divided by [d], and [away s r d] says
    whether the quotient is rounded away from zero, for remainder [r].  Other numbers are whole
    already; infinities and NaN stay what they are. *)
Definition to_whole (away : bool -> Z -> Z -> bool) (x : spec_float) : spec_float :=
  match x with
  | S754_finite s m e =>
      if e <? 0 then
        let d := 2 ^ (- e) in
        let q := Zpos m / d in
        let r := Zpos m mod d in
        whole_number s (if away s r d then q + 1 else q)
      else x
  | _ => x
  end.

(** [std::trunc] *)
Definition std_trunc : spec_float -> spec_float := to_whole (fun _ _ _ => false).
(** [std::floor]: away from zero below zero *)
Definition std_floor : spec_float -> spec_float := to_whole (fun s r _ => s && (0 <? r)).
(** [std::ceil]: away from zero above zero *)
Definition std_ceil : spec_float -> spec_float := to_whole (fun s r _ => negb s && (0 <? r)).
(** [std::round]: halves away from zero, whatever the rounding mode is *)
Definition std_round : spec_float -> spec_float := to_whole (fun _ r d => d <=? 2 * r).

Inductive rounding_op := OFloor | OCeil | OTrunc | ORound | OAbsolute.

(** detail/floor.h:21-39, detail/ceil.h:21-39, detail/trunc.h:21-39, detail/round.h:21-39 and
    detail/absolute.h:145-164, 169-183: [Algorithm::operator()] *)
Definition algorithm (o : rounding_op) : spec_float -> spec_float :=
  match o with
  | OFloor => std_floor
  | OCeil => std_ceil
  | OTrunc => std_trunc
  | ORound => std_round
  | OAbsolute => SFabs
  end.
End Format.

(** detail/floor.h:42-61 and the others: domain errors are discarded, and so are range errors,
    or, for [absolute] with its policy, no result is out of range (detail/absolute.h:92-108) *)
Definition every_value (x : spec_float) : bool := true.
Definition every_rounded (x r : spec_float) : bool := true.
