(** * Numbers as text

    How numbers are written by [boost::format("%1%")], which uses the stream operators of the
    standard library with their defaults, and how the XML library reads the values of
    [xs:int], [xs:nonNegativeInteger], [xs:positiveInteger] and [xs:double].  Used by
    [language/script/algebra_parser.cc:76-130], 445-451, 722-731 and
    [language/ast/xml/xml_parser.cc:1112-1126].  This is library code and trusted.

    Simplification: no white space around and no plus sign in front of a number that is read,
    and no exponent of more digits than the text has. *)

From Coq Require Import String Ascii List Bool ZArith DecimalString SpecFloat.
From Verif Require Import StringModel.
Import ListNotations.
Open Scope Z_scope.

(** [std::ostream << long] *)
Definition show_int (z : Z) : text := lit (NilZero.string_of_int (Z.to_int z)).

(** [xs:integer] *)
Definition read_integer (t : text) : option Z :=
  match NilZero.int_of_string (string_of_list_ascii t) with
  | Some i => Some (Z.of_int i)
  | None => None
  end.
Definition read_between (lowest highest : Z) (t : text) : option Z :=
  match read_integer t with
  | Some z => if (lowest <=? z) && (z <=? highest) then Some z else None
  | None => None
  end.
(** [xs:int], read into an [int] *)
Definition read_int : text -> option Z := read_between (- 2 ^ 31) (2 ^ 31 - 1).
(** [xs:nonNegativeInteger] and [xs:positiveInteger], read into an [unsigned long long] *)
Definition read_non_negative : text -> option Z := read_between 0 (2 ^ 64 - 1).
Definition read_positive : text -> option Z := read_between 1 (2 ^ 64 - 1).

(** ** Floating point numbers *)

(** The whole number closest to [n / d], the even one of two *)
Definition nearest (n d : Z) : Z :=
  let q := n / d in
  let r := n mod d in
  if 2 * r <? d then q else if d <? 2 * r then q + 1 else if Z.even q then q else q + 1.

(** [n / d] times [10 ^ x], as a fraction *)
Definition scaled (n d x : Z) : Z * Z :=
  if 0 <=? x then (n * 10 ^ x, d) else (n, d * 10 ^ (- x)).

(** The largest [x], not above [start], for which [10 ^ x <= n / d] *)
Fixpoint exponent10 (steps : nat) (start n d : Z) : Z :=
  match steps with
  | O => start
  | S k => let (a, b) := scaled n d (- start) in
           if b <=? a then start else exponent10 k (start - 1) n d
  end.

(** [n / d] rounded to six digits [D] and an exponent [X]: [D * 10 ^ (X - 5)] *)
Definition six_digits (n d : Z) : Z * Z :=
  let x := exponent10 633 309 n d in
  let (a, b) := scaled n d (5 - x) in
  let m := nearest a b in
  if m =? 10 ^ 6 then (10 ^ 5, x + 1) else (m, x).

(** Trailing zeros are not written. *)
Fixpoint drop_zeros (reversed : text) : text :=
  match reversed with
  | "0"%char :: r => drop_zeros r
  | r => r
  end.
Definition fraction (t : text) : text :=
  match drop_zeros (rev t) with [] => [] | r => "."%char :: rev r end.
Definition zeros (n : Z) : text := repeat "0"%char (Z.to_nat n).
Definition two_digits (z : Z) : text := if z <? 10 then zeros 1 ++ show_int z else show_int z.

(** [printf("%g")]: six digits, without an exponent if it is from -4 to 5 *)
Definition show_six (D X : Z) : text :=
  let t := show_int D in
  if (X <? -4) || (6 <=? X)
  then firstn 1 t ++ fraction (skipn 1 t) ++ "e"%char ::
       (if X <? 0 then "-"%char else "+"%char) :: two_digits (Z.abs X)
  else if X <? 0 then zeros 1 ++ fraction (zeros (- X - 1) ++ t)
  else firstn (Z.to_nat (X + 1)) t ++ fraction (skipn (Z.to_nat (X + 1)) t).

(** [std::ostream << double] *)
Definition show_double (x : spec_float) : text :=
  match x with
  | S754_zero s => (if s then lit "-0" else lit "0")
  | S754_infinity s => if s then lit "-inf" else lit "inf"
  | S754_nan => lit "nan"
  | S754_finite s m e =>
      let (n, d) := if 0 <=? e then (Zpos m * 2 ^ e, 1) else (Zpos m, 2 ^ (- e)) in
      let (D, X) := six_digits n d in
      (if s then lit "-" else []) ++ show_six D X
  end.

(** The double closest to [k * 10 ^ x], [0 <= k] *)
Definition double_of_decimal (negative : bool) (k x : Z) : spec_float :=
  match k with
  | Zpos p =>
      if 0 <=? x then
        match k * 10 ^ x with Zpos q => binary_round 53 1024 negative q 0 | _ => S754_nan end
      else
        match SFdiv_core_binary 53 1024 k 0 (10 ^ (- x)) 0 with
        | (q, e, l) => binary_round_aux 53 1024 negative q e l
        end
  | _ => S754_zero negative
  end.

(** The digits at the start of a text, as a number with the digits before, and how many *)
Fixpoint digits (k count : Z) (t : text) : Z * Z * text :=
  match t with
  | c :: t' =>
      let n := Z.of_nat (nat_of_ascii c) - 48 in
      if (0 <=? n) && (n <=? 9) then digits (10 * k + n) (count + 1) t' else (k, count, t)
  | [] => (k, count, [])
  end.

(** [xs:double] *)
Definition read_exponent (t : text) : option Z :=
  match t with
  | [] => Some 0
  | c :: t' =>
      if Ascii.eqb c "e"%char || Ascii.eqb c "E"%char then
        let '(negative, t'') :=
          match t' with
          | "-"%char :: t'' => (true, t'')
          | "+"%char :: t'' => (false, t'')
          | _ => (false, t')
          end in
        match digits 0 0 t'' with
        | (x, count, []) =>
            if count =? 0 then None else Some (if negative : bool then - x else x)
        | _ => None
        end
      else None
  end.
Definition read_decimal (negative : bool) (t : text) : option spec_float :=
  let '(k, whole, t1) := digits 0 0 t in
  let '(k, all, t2) :=
    match t1 with
    | "."%char :: t2 => digits k whole t2
    | _ => (k, whole, t1)
    end in
  if all =? 0 then None else
  match read_exponent t2 with
  | Some x => Some (double_of_decimal negative k (x - (all - whole)))
  | None => None
  end.
Definition read_double (t : text) : option spec_float :=
  if list_eq_dec ascii_dec t (lit "INF") then Some (S754_infinity false)
  else if list_eq_dec ascii_dec t (lit "-INF") then Some (S754_infinity true)
  else if list_eq_dec ascii_dec t (lit "NaN") then Some S754_nan
  else match t with
       | "-"%char :: t' => read_decimal true t'
       | _ => read_decimal false t
       end.
