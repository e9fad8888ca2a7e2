(** * Rasters as arrays of NumPy

    Models [python/feature/numpy.cc] and [numpy_type_traits.h], with the memory of rasters
    ([python/feature/detail/masked_raster.h]) and of NumPy's arrays.

    Trusted is what NumPy does: [PyArray_SimpleNewFromData] makes an array of items in memory it is given,
    with rows after each other, which it does not own; [copy] makes an array with memory of its own.

    Simplifications: memory is blocks of bytes, and blocks that are freed are not used again.  Machines
    are little-endian.  Numbers of floating point types are their patterns of bits.  Rasters fit in
    memory, and all their cells have been assigned. *)
From Coq Require Import ZArith List Bool Arith.
Import ListNotations.
Open Scope Z_scope.

(** What a pattern of bits says *)
Inductive sort := Boolean | Unsigned | Signed | Floating.
(** The value types that rasters can have *)
Inductive vtype := Bool | U8 | S8 | U16 | S16 | U32 | S32 | U64 | S64 | F32 | F64.
(** C++: the number of bytes and what they say, of a type *)
Definition cpp (t : vtype) : nat * sort :=
  match t with
  | Bool => (1%nat, Boolean)
  | U8 => (1%nat, Unsigned) | S8 => (1%nat, Signed)
  | U16 => (2%nat, Unsigned) | S16 => (2%nat, Signed)
  | U32 => (4%nat, Unsigned) | S32 => (4%nat, Signed)
  | U64 => (8%nat, Unsigned) | S64 => (8%nat, Signed)
  | F32 => (4%nat, Floating) | F64 => (8%nat, Floating)
  end.

(** NumPy's types, with their numbers of bytes *)
Inductive npy :=
| NPY_BOOL | NPY_UINT8 | NPY_INT8 | NPY_UINT16 | NPY_INT16 | NPY_UINT32 | NPY_INT32 | NPY_UINT64 | NPY_INT64
| NPY_FLOAT32 | NPY_FLOAT64.
Definition item_type (t : npy) : nat * sort :=
  match t with
  | NPY_BOOL => (1%nat, Boolean)
  | NPY_UINT8 => (1%nat, Unsigned) | NPY_INT8 => (1%nat, Signed)
  | NPY_UINT16 => (2%nat, Unsigned) | NPY_INT16 => (2%nat, Signed)
  | NPY_UINT32 => (4%nat, Unsigned) | NPY_INT32 => (4%nat, Signed)
  | NPY_UINT64 => (8%nat, Unsigned) | NPY_INT64 => (8%nat, Signed)
  | NPY_FLOAT32 => (4%nat, Floating) | NPY_FLOAT64 => (8%nat, Floating)
  end.
(** numpy_type_traits.h:22-96 *)
Definition numpy_type (t : vtype) : npy :=
  match t with
  | Bool => NPY_BOOL
  | U8 => NPY_UINT8 | S8 => NPY_INT8
  | U16 => NPY_UINT16 | S16 => NPY_INT16
  | U32 => NPY_UINT32 | S32 => NPY_INT32
  | U64 => NPY_UINT64 | S64 => NPY_INT64
  | F32 => NPY_FLOAT32 | F64 => NPY_FLOAT64
  end.

(** ** Bytes *)
Fixpoint to_bytes (w : nat) (z : Z) : list Z :=
  match w with O => [] | S w' => z mod 256 :: to_bytes w' (z / 256) end.
Fixpoint of_bytes (l : list Z) : Z := match l with [] => 0 | b :: l' => b + 256 * of_bytes l' end.
Definition limit (w : nat) : Z := 256 ^ Z.of_nat w.
(** What bytes say *)
Definition decode (t : nat * sort) (l : list Z) : Z :=
  let z := of_bytes l in
  match snd t with Signed => if 2 * z <? limit (fst t) then z else z - limit (fst t) | _ => z end.
Definition encode (t : nat * sort) (v : Z) : list Z := to_bytes (fst t) v.

Definition splice (l : list Z) (offset : nat) (bytes : list Z) : list Z :=
  firstn offset l ++ bytes ++ skipn (offset + length bytes) l.

(** ** Objects and their memory *)

(** A raster, or an array of NumPy *)
Record object := Object { block : nat; nr_rows : nat; nr_cols : nat; element_type : nat * sort; value_type : option vtype }.
(** [None]: freed *)
Record state := State { memory : list (option (list Z)); objects : list (option object) }.
Definition start : state := State [] [].

Inductive res (A : Type) := Ok (a : A) | Aborts | Undefined | Nothing.
Arguments Ok {A} _. Arguments Aborts {A}. Arguments Undefined {A}. Arguments Nothing {A}.

Fixpoint replace {A} (l : list A) (i : nat) (a : A) : list A :=
  match l, i with
  | [], _ => []
  | _ :: l', O => a :: l'
  | x :: l', S i' => x :: replace l' i' a
  end.

Definition object_of (s : state) (o : nat) : option object := match nth_error (objects s) o with Some (Some x) => Some x | _ => None end.
Definition bytes_of (s : state) (b : nat) : option (list Z) := match nth_error (memory s) b with Some (Some l) => Some l | _ => None end.

(** detail/masked_raster.h:180-187: [index]; NumPy: the strides of rows after each other *)
Definition offset (x : object) (i j : nat) : nat := ((i * nr_cols x + j) * fst (element_type x))%nat.

(** What is at a row and column *)
Definition item (s : state) (o i j : nat) : option (sort * Z) :=
  match object_of s o with
  | Some x =>
      if (Nat.ltb i (nr_rows x) && Nat.ltb j (nr_cols x))%bool then
        match bytes_of s (block x) with
        | Some l => Some (snd (element_type x), decode (element_type x) (firstn (fst (element_type x)) (skipn (offset x i j) l)))
        | None => None
        end
      else None
  | None => None
  end.

Section Actions.
Variable debug : bool.

(** switch_on_value_type.h:17-36 *)
Definition supported (t : vtype) : bool := match t with U8 | U32 | S32 | U64 | S64 | F32 | F64 => true | _ => false end.

(** numpy.cc:29-53: an array in the memory of the raster *)
Definition wrap_array (x : object) (t : vtype) : object :=
  Object (block x) (nr_rows x) (nr_cols x) (item_type (numpy_type t)) None.

(** [copy] of an array *)
Definition copy_array (s : state) (x : object) : res state :=
  match bytes_of s (block x) with
  | None => Undefined
  | Some l =>
      let n := (nr_rows x * nr_cols x * fst (element_type x))%nat in
      Ok (State (memory s ++ [Some (firstn n l)])
                (objects s ++ [Some (Object (length (memory s)) (nr_rows x) (nr_cols x) (element_type x) None)]))
  end.

(** numpy.cc:67-78.  Other value types: nothing is wrapped *)
Definition raster_as_numpy_array (s : state) (o : nat) : res state :=
  match object_of s o with
  | Some x =>
      match value_type x with
      | Some t => if supported t then copy_array s (wrap_array x t) else if debug then Aborts else Nothing
      | None => Undefined
      end
  | None => Undefined
  end.

(** detail/masked_raster.h:81-121: a raster with its values; [Array]: see above; [Write]: an element of
    a raster, or an item of an array; [Destroy]: its memory goes with it *)
Inductive action :=
| Raster (t : vtype) (rows cols : nat) (values : list Z)
| Array (o : nat)
| Write (o i j : nat) (v : Z)
| Destroy (o : nat).

Definition act (a : action) (s : state) : res state :=
  match a with
  | Raster t rows cols values =>
      Ok (State (memory s ++ [Some (flat_map (encode (cpp t)) values)])
                (objects s ++ [Some (Object (length (memory s)) rows cols (cpp t) (Some t))]))
  | Array o => raster_as_numpy_array s o
  | Write o i j v =>
      match object_of s o with
      | Some x =>
          match bytes_of s (block x) with
          | Some l => Ok (State (replace (memory s) (block x) (Some (splice l (offset x i j) (encode (element_type x) v)))) (objects s))
          | None => Undefined
          end
      | None => Undefined
      end
  | Destroy o =>
      match object_of s o with
      | Some x => Ok (State (replace (memory s) (block x) None) (replace (objects s) o None))
      | None => Undefined
      end
  end.

Fixpoint run (l : list action) (s : state) : res state :=
  match l with
  | [] => Ok s
  | a :: l' => match act a s with Ok s' => run l' s' | r => r end
  end.
End Actions.
Arguments Ok {A} _. Arguments Aborts {A}. Arguments Undefined {A}. Arguments Nothing {A}.
