(** * What is expected of arrays of NumPy made of rasters *)
From Coq Require Import ZArith List Bool Arith.
From Verif Require Import NumpyModel.
Import ListNotations.
Open Scope Z_scope.

(** Whether a type has a value: integers by their bounds, numbers of floating point types by their bits *)
Definition has_value (t : vtype) (v : Z) : Prop :=
  match t with
  | Bool => 0 <= v <= 1
  | U8 => 0 <= v <= 255 | S8 => -128 <= v <= 127
  | U16 => 0 <= v <= 65535 | S16 => -32768 <= v <= 32767
  | U32 => 0 <= v <= 4294967295 | S32 => -2147483648 <= v <= 2147483647
  | U64 => 0 <= v <= 18446744073709551615 | S64 => -9223372036854775808 <= v <= 9223372036854775807
  | F32 => 0 <= v <= 4294967295 | F64 => 0 <= v <= 18446744073709551615
  end.
Definition sort_of (t : vtype) : sort :=
  match t with
  | Bool => Boolean | U8 | U16 | U32 | U64 => Unsigned | S8 | S16 | S32 | S64 => Signed | F32 | F64 => Floating
  end.
(** An object exists, with its numbers of rows and columns *)
Definition shape (s : state) (o : nat) : option (nat * nat) :=
  match object_of s o with Some x => Some (nr_rows x, nr_cols x) | None => None end.
(** The type a raster has *)
Definition raster_type (s : state) (o : nat) (t : vtype) : Prop := exists x, object_of s o = Some x /\ value_type x = Some t.

(** What programs can do; [Write] is within the bounds *)
Definition possible (a : action) (s : state) : Prop :=
  match a with
  | Raster t rows cols values => length values = (rows * cols)%nat /\ Forall (has_value t) values
  | Array o => exists t, raster_type s o t /\ supported t = true
  | Write o i j v => exists rows cols, shape s o = Some (rows, cols) /\ (i < rows)%nat /\ (j < cols)%nat
  | Destroy o => shape s o <> None
  end.
Fixpoint possible_all (debug : bool) (l : list action) (s : state) : Prop :=
  match l with
  | [] => True
  | a :: l' => possible a s /\ forall s', act debug a s = Ok s' -> possible_all debug l' s'
  end.
(** What a program can have come to *)
Definition reachable (debug : bool) (s : state) : Prop := exists l, possible_all debug l start /\ run debug l start = Ok s.

(** Whether something changes what is at a row and column of an object *)
Definition touches (a : action) (o i j : nat) : Prop :=
  match a with Write o' i' j' _ => o' = o /\ i' = i /\ j' = j | Destroy o' => o' = o | _ => False end.
