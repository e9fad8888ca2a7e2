(** * What collections of flags and result types are expected to be *)
From Coq Require Import String Ascii List Bool Arith NArith.
From Verif Require Import StringModel FlagModel.
Import ListNotations.

(** A collection with room for [size] flags. *)
Definition collection (size : nat) (a : flags) : Prop := (a < 2 ^ N.of_nat size)%N.

(** A flag is in a collection if testing it says so. *)
Definition has (size : nat) (a : flags) (p : nat) : Prop := test size a p = Some true.
Definition has_type (a : flags) (t : value_type) : Prop :=
  has value_types_size a (value_type_number t).
Definition has_data (a : flags) (t : data_type) : Prop :=
  has data_types_size a (data_type_number t).

(** The kinds of value types; widths in bits. *)
Inductive kind := Unsigned (width : nat) | Signed (width : nat) | Floating (width : nat) | Other.
Definition kind_of (t : value_type) : kind :=
  match t with
  | VT_UINT8 => Unsigned 8 | VT_UINT16 => Unsigned 16
  | VT_UINT32 => Unsigned 32 | VT_UINT64 => Unsigned 64
  | VT_INT8 => Signed 8 | VT_INT16 => Signed 16
  | VT_INT32 => Signed 32 | VT_INT64 => Signed 64
  | VT_FLOAT32 => Floating 32 | VT_FLOAT64 => Floating 64
  | VT_BOOL | VT_CHAR | VT_STRING => Other
  end.
Definition numeric (t : value_type) : Prop := kind_of t <> Other.

(** The order of the arithmetic conversions: floating point types outrank integer types, wider
    types outrank narrower ones and unsigned types signed ones of the same width. *)
Definition outranks (a b : kind) : Prop :=
  match a, b with
  | Floating w, Floating v => v < w
  | Floating _, (Unsigned _ | Signed _) => True
  | Unsigned w, Signed v => v <= w
  | Unsigned w, Unsigned v | Signed w, Signed v | Signed w, Unsigned v => v < w
  | _, _ => False
  end.

(** The only types are 16 bit signed and 8 bit ones, and there is one of both. *)
Definition short_and_byte (ts : list value_type) : Prop :=
  In VT_INT16 ts /\ (In VT_UINT8 ts \/ In VT_INT8 ts) /\
  forall t, In t ts -> t = VT_INT16 \/ t = VT_UINT8 \/ t = VT_INT8.

(** The parameters accept arguments of these value types. *)
Definition accepts (op : operation) (ts : list value_type) : Prop :=
  Forall2 (fun t p => exists e, p = [e] /\ has_type (et_value e) t) ts (op_parameters op).
