(** * C++ integer arithmetic

    The integer value types of fern ([core/type_traits.h:70-307]) with the rules of C++
    for promotion, usual arithmetic conversions, conversion and overflow, on a platform with
    a 32-bit [int], 64-bit [long] and two's complement.

    Signed overflow is undefined behaviour; compilers can be told to let it wrap instead
    ([-fwrapv]; the code mentions this at algebra/elementary/detail/add.h:81-83).  The flag
    [wrapv] selects between the two.  [None] is undefined behaviour. *)

From Coq Require Import ZArith Bool.
Open Scope Z_scope.

(** core/type_traits.h:70-307 *)
Inductive ity := U8 | U16 | U32 | U64 | S8 | S16 | S32 | S64.

Definition ity_eqb (s t : ity) : bool :=
  match s, t with
  | U8, U8 | U16, U16 | U32, U32 | U64, U64
  | S8, S8 | S16, S16 | S32, S32 | S64, S64 => true
  | _, _ => false
  end.

Definition width (t : ity) : Z :=
  match t with U8 | S8 => 8 | U16 | S16 => 16 | U32 | S32 => 32 | U64 | S64 => 64 end.

Definition signed (t : ity) : bool :=
  match t with S8 | S16 | S32 | S64 => true | _ => false end.

(** [2 ^ width] *)
Definition modulus (t : ity) : Z :=
  match t with
  | U8 | S8 => 256
  | U16 | S16 => 65536
  | U32 | S32 => 4294967296
  | U64 | S64 => 18446744073709551616
  end.

(** [TypeTraits<T>::min()], [TypeTraits<T>::max()]; core/type_traits.h:83-91 and so on *)
Definition imin (t : ity) : Z :=
  match t with
  | S8 => -128 | S16 => -32768 | S32 => -2147483648 | S64 => -9223372036854775808
  | _ => 0
  end.
Definition imax (t : ity) : Z :=
  match t with
  | U8 => 255 | U16 => 65535 | U32 => 4294967295 | U64 => 18446744073709551615
  | S8 => 127 | S16 => 32767 | S32 => 2147483647 | S64 => 9223372036854775807
  end.

(** Conversion to an integer type. *)
Definition conv (t : ity) (z : Z) : Z := (z - imin t) mod modulus t + imin t.

(** Integral promotion and the usual arithmetic conversions. *)
Definition promote (t : ity) : ity := if width t <? 32 then S32 else t.
Definition common (s t : ity) : ity :=
  let p := promote s in
  let q := promote t in
  if Bool.eqb (signed p) (signed q) then if width p <? width q then q else p
  else if signed p then if width q <? width p then p else q
  else if width p <? width q then q else p.

(** The result of an operation carried out in type [t], given the mathematical result. *)
Definition arith (wrapv : bool) (t : ity) (z : Z) : option Z :=
  if signed t then
    if (imin t <=? z) && (z <=? imax t) then Some z
    else if wrapv then Some (conv t z) else None
  else Some (conv t z).

(** Typed values, for expressions that mix types. *)
Definition tv := (ity * Z)%type.

Definition tv_lt (a b : tv) : bool :=
  let t := common (fst a) (fst b) in conv t (snd a) <? conv t (snd b).
Definition tv_gt (a b : tv) : bool := tv_lt b a.
Definition tv_le (a b : tv) : bool := negb (tv_lt b a).
Definition tv_ge (a b : tv) : bool := negb (tv_lt a b).
Definition tv_eq (a b : tv) : bool :=
  let t := common (fst a) (fst b) in conv t (snd a) =? conv t (snd b).

(** The literal 0. *)
Definition zero : tv := (S32, 0).

Definition opt_tv (t : ity) (o : option Z) : option tv :=
  match o with Some z => Some (t, z) | None => None end.

(** Unary minus. *)
Definition tv_neg (wrapv : bool) (a : tv) : option tv :=
  opt_tv (promote (fst a)) (arith wrapv (promote (fst a)) (- snd a)).

(** Division: undefined for a zero divisor and, also with [-fwrapv], for MIN / -1. *)
Definition tv_div (a b : tv) : option tv :=
  let t := common (fst a) (fst b) in
  let x := conv t (snd a) in
  let y := conv t (snd b) in
  if y =? 0 then None
  else opt_tv t (arith false t (Z.quot x y)).
