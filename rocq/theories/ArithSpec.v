(** * Specification vocabulary for the arithmetic properties *)

From Coq Require Import ZArith QArith Bool.
From Verif Require Import IntsModel ArithModel.
Open Scope Z_scope.

(** The value [z] is representable in the integer type [t]. *)
Definition fits_in (t : ity) (z : Z) : Prop := imin t <= z <= imax t.

(** The rational [q] is a finite value of a binary floating point type with a [p]-bit
    significand and exponents of the last bit from [emin] to [emax]. *)
Definition is_float (p emin emax : Z) (q : Q) : Prop :=
  exists m e, Z.abs m < 2 ^ p /\ emin <= e <= emax /\ (q == inject_Z m * (2 # 1) ^ e)%Q.

(** The rational [q] is a value of the value type; [true] and [false] count as 1 and 0. *)
Definition has_value (t : vty) (q : Q) : Prop :=
  match t with
  | VBool => (q == 0 \/ q == 1)%Q
  | VInt t => exists z, fits_in t z /\ (q == inject_Z z)%Q
  | VFloat32 => is_float 24 (-149) 104 q
  | VFloat64 => is_float 53 (-1074) 971 q
  end.

(** The pairs of value types whose result type cannot represent all their values: uint64 with
    a signed integer, a 32- or 64-bit integer with a 32-bit float, and a 64-bit integer with
    a 64-bit float. *)
Definition lossy1 (a b : vty) : Prop :=
  match a, b with
  | VInt s, VInt t => s = U64 /\ signed t = true
  | VInt s, VFloat32 => 32 <= width s
  | VInt s, VFloat64 => width s = 64
  | _, _ => False
  end.
Definition lossy (a b : vty) : Prop := lossy1 a b \/ lossy1 b a.

(** Operations in the 32- and 64-bit signed types leave C++'s defined behaviour when they
    overflow; in smaller types they are carried out in [int]. *)
Definition wide_signed (t : ity) : Prop := t = S32 \/ t = S64.
