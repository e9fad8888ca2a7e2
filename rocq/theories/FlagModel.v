(** * Collections of flags, value and data types, and expression types

    Models [core/flag_collection.h], [core/value_types.cc], [core/data_types.cc],
    [core/type_traits.cc], [core/expression_type.cc],
    [language/operation/core/expression_types.cc] and
    [language/operation/core/expression_type_calculation.cc].

    A [std::bitset] of [size] bits is a number below [2 ^ size]; bit [i] of the number is the
    flag with number [i].  The static constants are assumed to be initialised before they are
    used.  A failed assertion or an exception is [None]. *)

From Coq Require Import String Ascii List Bool Arith NArith.
From Verif Require Import StringModel.
Import ListNotations.

Definition flags : Type := N.

(** The constructor keeps the lowest [size] bits; flag_collection.h:89-95 *)
Definition make_flags (size : nat) (bits : N) : flags := N.modulo bits (2 ^ N.of_nat size).

(** flag_collection.h:37: no flag is set *)
Definition no_flags : flags := 0%N.

(** flag_collection.h:98-120, 123-132, 135-144; value_types.cc:121-128, data_types.cc:103-110 *)
Definition flags_and (a b : flags) : flags := N.land a b.
Definition flags_or (a b : flags) : flags := N.lor a b.
Definition flags_xor (a b : flags) : flags := N.lxor a b.

(** flag_collection.h:218-237 *)
Definition flags_eq (a b : flags) : bool := N.eqb a b.
Definition flags_ne (a b : flags) : bool := negb (N.eqb a b).

(** flag_collection.h:147-154 *)
Fixpoint count_bits (p : positive) : nat :=
  match p with
  | xH => 1
  | xO p' => count_bits p'
  | xI p' => S (count_bits p')
  end.
Definition count (a : flags) : nat := match a with N0 => 0 | Npos p => count_bits p end.

(** flag_collection.h:157-165; [std::bitset::test] throws for other positions *)
Definition test (size : nat) (a : flags) (pos : nat) : option bool :=
  if pos <? size then Some (N.testbit a (N.of_nat pos)) else None.

(** flag_collection.h:168-186 *)
Definition none (a : flags) : bool := N.eqb a 0.
Definition any (a : flags) : bool := negb (N.eqb a 0).

(** flag_collection.h:197-204 *)
Definition fixed (a : flags) : bool := count a =? 1.

(** flag_collection.h:207-215 *)
Definition is_subset_of (a b : flags) : bool := any a && (count (flags_and a b) =? count a).

(** ** Value types *)

(** value_type.h:14-44 *)
Inductive value_type :=
| VT_BOOL | VT_CHAR | VT_UINT8 | VT_INT8 | VT_UINT16 | VT_INT16 | VT_UINT32 | VT_INT32
| VT_UINT64 | VT_INT64 | VT_FLOAT32 | VT_FLOAT64 | VT_STRING.
Definition value_type_number (t : value_type) : nat :=
  match t with
  | VT_BOOL => 0 | VT_CHAR => 1 | VT_UINT8 => 2 | VT_INT8 => 3 | VT_UINT16 => 4
  | VT_INT16 => 5 | VT_UINT32 => 6 | VT_INT32 => 7 | VT_UINT64 => 8 | VT_INT64 => 9
  | VT_FLOAT32 => 10 | VT_FLOAT64 => 11 | VT_STRING => 12
  end.
(** value_types.h:27-29, value_type.h:42 *)
Definition value_types_size : nat := S (value_type_number VT_STRING).

(** type_traits.cc:17-43 *)
Definition vt_flags (t : value_type) : flags :=
  make_flags value_types_size (N.shiftl 1 (N.of_nat (value_type_number t))).
Definition vts_unknown : flags := no_flags.
Definition vts_unsigned_integer : flags :=
  flags_or (flags_or (flags_or (vt_flags VT_UINT8) (vt_flags VT_UINT16)) (vt_flags VT_UINT32))
    (vt_flags VT_UINT64).
Definition vts_signed_integer : flags :=
  flags_or (flags_or (flags_or (vt_flags VT_INT8) (vt_flags VT_INT16)) (vt_flags VT_INT32))
    (vt_flags VT_INT64).
Definition vts_integer : flags := flags_or vts_unsigned_integer vts_signed_integer.
Definition vts_size : flags := vt_flags VT_UINT64.
Definition vts_floating_point : flags := flags_or (vt_flags VT_FLOAT32) (vt_flags VT_FLOAT64).
Definition vts_number : flags := flags_or vts_integer vts_floating_point.
Definition vts_all : flags :=
  flags_or (flags_or (flags_or (vt_flags VT_BOOL) (vt_flags VT_CHAR)) vts_number)
    (vt_flags VT_STRING).

(** value_types.cc:67-81 *)
Definition value_type_list : list value_type :=
  [VT_BOOL; VT_CHAR; VT_UINT8; VT_INT8; VT_UINT16; VT_INT16; VT_UINT32; VT_INT32;
   VT_UINT64; VT_INT64; VT_FLOAT32; VT_FLOAT64; VT_STRING].

(** value_types.cc:42-64 *)
Definition value_type_name (t : value_type) : text :=
  match t with
  | VT_BOOL => lit "Bool" | VT_CHAR => lit "Char" | VT_UINT8 => lit "Uint8"
  | VT_INT8 => lit "Int8" | VT_UINT16 => lit "Uint16" | VT_INT16 => lit "Int16"
  | VT_UINT32 => lit "Uint32" | VT_INT32 => lit "Int32" | VT_UINT64 => lit "Uint64"
  | VT_INT64 => lit "Int64" | VT_FLOAT32 => lit "Float32" | VT_FLOAT64 => lit "Float64"
  | VT_STRING => lit "String"
  end.

(** value_types.cc:22-39 *)
Definition value_type_by_string : list (text * flags) :=
  [(lit "Bool", vt_flags VT_BOOL); (lit "Char", vt_flags VT_CHAR);
   (lit "Uint8", vt_flags VT_UINT8); (lit "Int8", vt_flags VT_INT8);
   (lit "Uint16", vt_flags VT_UINT16); (lit "Int16", vt_flags VT_INT16);
   (lit "Uint32", vt_flags VT_UINT32); (lit "Int32", vt_flags VT_INT32);
   (lit "Uint64", vt_flags VT_UINT64); (lit "Int64", vt_flags VT_INT64);
   (lit "Size", vts_size); (lit "Float32", vt_flags VT_FLOAT32);
   (lit "Float64", vt_flags VT_FLOAT64); (lit "String", vt_flags VT_STRING);
   (lit "Number", vts_number); (lit "All", vts_all)].

Definition text_eq (a b : text) : bool := if list_eq_dec ascii_dec a b then true else false.

(** [std::map::find] *)
Fixpoint find_string (m : list (text * flags)) (s : text) : option flags :=
  match m with
  | [] => None
  | (k, v) :: m' => if text_eq k s then Some v else find_string m' s
  end.

(** value_types.cc:84-90 *)
Definition value_types_from_string (s : text) : option flags :=
  match s with [] => None | _ => find_string value_type_by_string s end.

(** value_types.cc:113-117, data_types.cc:95-99 *)
Definition join_names (strings : list text) : text :=
  join (match strings with [] => [lit "?"] | _ => strings end) (lit "|").

(** value_types.cc:102-118, data_types.cc:84-100: the loop that collects the names of the flags
    that are set *)
Fixpoint set_names {T} (size : nat) (number : T -> nat) (name : T -> text) (a : flags)
  (types : list T) : option (list text) :=
  match types with
  | [] => Some []
  | t :: types' =>
      match test size a (number t), set_names size number name a types' with
      | Some b, Some l => Some (if b then name t :: l else l)
      | _, _ => None
      end
  end.

(** value_types.cc:102-118 *)
Definition value_types_to_string (a : flags) : option text :=
  if length value_type_list =? value_types_size then
    option_map join_names
      (set_names value_types_size value_type_number value_type_name a value_type_list)
  else None.

(** ** Data types *)

(** data_type.h:14-30 *)
Inductive data_type := DT_CONSTANT | DT_STATIC_FIELD.
Definition data_type_number (t : data_type) : nat :=
  match t with DT_CONSTANT => 0 | DT_STATIC_FIELD => 1 end.
(** data_types.h:31-32 *)
Definition data_types_size : nat := S (data_type_number DT_STATIC_FIELD).

(** data_types.cc:18-26 *)
Definition dt_flags (t : data_type) : flags :=
  make_flags data_types_size (N.shiftl 1 (N.of_nat (data_type_number t))).
Definition dts_unknown : flags := no_flags.
Definition dts_all : flags := flags_or (dt_flags DT_CONSTANT) (dt_flags DT_STATIC_FIELD).

(** data_types.cc:67-73, 41-55 *)
Definition data_type_list : list data_type := [DT_CONSTANT; DT_STATIC_FIELD].
Definition data_type_name (t : data_type) : text :=
  match t with DT_CONSTANT => lit "Constant" | DT_STATIC_FIELD => lit "StaticField" end.

(** data_types.cc:30-38, 58-64 *)
Definition data_type_by_string : list (text * flags) :=
  [(lit "Constant", dt_flags DT_CONSTANT); (lit "StaticField", dt_flags DT_STATIC_FIELD);
   (lit "All", dts_all)].
Definition data_types_from_string (s : text) : option flags :=
  match s with [] => None | _ => find_string data_type_by_string s end.

(** data_types.cc:84-100 *)
Definition data_types_to_string (a : flags) : option text :=
  if length data_type_list =? data_types_size then
    option_map join_names
      (set_names data_types_size data_type_number data_type_name a data_type_list)
  else None.

(** ** Expression types *)

(** expression_type.h:25-62 *)
Record expression_type := { et_data : flags; et_value : flags }.

(** expression_type.cc:23-33 *)
Definition make_expression_type (d v : flags) : option expression_type :=
  if flags_ne d dts_unknown && flags_ne v vts_unknown
  then Some {| et_data := d; et_value := v |} else None.

(** expression_type.h:30 *)
Definition default_expression_type : expression_type :=
  {| et_data := no_flags; et_value := no_flags |}.

(** expression_type.cc:64-79 *)
Definition et_defined (e : expression_type) : bool :=
  (0 <? count (et_data e)) && (0 <? count (et_value e)).
Definition et_fixed (e : expression_type) : bool := fixed (et_data e) && fixed (et_value e).

(** expression_type.cc:87-93 *)
Definition et_is_satisfied_by (this e : expression_type) : bool :=
  is_subset_of (et_data e) (et_data this) && is_subset_of (et_value e) (et_value this).

(** expression_type.cc:96-102 *)
Definition et_eq (a b : expression_type) : bool :=
  flags_eq (et_data a) (et_data b) && flags_eq (et_value a) (et_value b).

(** expression_types.cc:35-48 *)
Definition ets_is_satisfied_by_one (this : list expression_type) (e : expression_type) : bool :=
  existsb (fun t => et_is_satisfied_by t e) this.

(** expression_types.cc:51-64: the loop from index [i] on; [n] is the number of types *)
Fixpoint id_loop (this types : list expression_type) (i n : nat) : nat :=
  match types with
  | [] => n
  | e :: types' => if ets_is_satisfied_by_one this e then i else id_loop this types' (S i) n
  end.
Definition id_of_satisfying_type (this types : list expression_type) : nat :=
  id_loop this types 0 (length types).

(** expression_types.cc:79-83 *)
Definition ets_is_satisfied_by (this types : list expression_type) : bool :=
  id_of_satisfying_type this types <? length types.

(** expression_types.cc:86-98 *)
Definition ets_fixed (this : list expression_type) : bool :=
  match this with [] => false | _ => forallb et_fixed this end.

(** ** The type of the result of an operation *)

(** operation.h:30-85, parameter.cc:31-52, result.cc:16-28: names and descriptions are left out.
    A parameter has the types it was constructed with. *)
Record operation := {
  op_parameters : list (list expression_type);
  op_results : list expression_type
}.

(** expression_type_calculation.cc:42-46, 117-123: the types supported by the parameters.
    Parameters must have one expression type. *)
Fixpoint supported (part : expression_type -> flags) (args : list flags)
  (params : list (list expression_type)) : option (list flags) :=
  match args, params with
  | [], _ => Some []
  | a :: args', [e] :: params' =>
      option_map (cons (flags_and a (part e))) (supported part args' params')
  | _, _ => None
  end.

(** expression_type_calculation.cc:49-54, 139-144 *)
Fixpoint merged_parameters (part : expression_type -> flags) (r : flags)
  (params : list (list expression_type)) : option flags :=
  match params with
  | [] => Some r
  | [e] :: params' => merged_parameters part (flags_or r (part e)) params'
  | _ :: _ => None
  end.

(** expression_type_calculation.cc:56-59, 126-130 *)
Definition merged (fs : list flags) : flags := fold_left flags_or fs no_flags.

(** [set.test(flag)] *)
Definition vt_test (a : flags) (t : value_type) : bool :=
  match test value_types_size a (value_type_number t) with Some b => b | None => false end.
Definition dt_test (a : flags) (t : data_type) : bool :=
  match test data_types_size a (data_type_number t) with Some b => b | None => false end.

(** expression_type_calculation.cc:17-82 *)
Definition result_data_type (op : operation) (index : nat) (args : list flags) : option flags :=
  match nth_error (op_results op) index with
  | None => None
  | Some result =>
      if negb (length args =? length (op_parameters op)) then None
      else if fixed (et_data result) then Some (et_data result)
      else
        match supported et_data args (op_parameters op),
              merged_parameters et_data no_flags (op_parameters op) with
        | Some types, Some merged_params =>
            let merged_args := merged types in
            let r :=
              if dt_test merged_args DT_STATIC_FIELD then Some (dt_flags DT_STATIC_FIELD)
              else if dt_test merged_args DT_CONSTANT then Some (dt_flags DT_CONSTANT)
              else if flags_eq merged_args dts_unknown then Some merged_params
              else None in
            match r with
            | Some r => if is_subset_of r (et_data result) then Some r else None
            | None => None
            end
        | _, _ => None
        end
  end.

(** expression_type_calculation.cc:150-184: the case distinction, from the first to the last
    test; there is none for 16 bit signed integers *)
Definition value_type_cases : list value_type :=
  [VT_FLOAT64; VT_FLOAT32; VT_UINT64; VT_INT64; VT_UINT32; VT_INT32; VT_UINT16; VT_UINT8;
   VT_INT8].

(** expression_type_calculation.cc:85-189 *)
Definition result_value_type (op : operation) (index : nat) (args : list flags) : option flags :=
  match nth_error (op_results op) index with
  | None => None
  | Some result =>
      if negb (length args =? length (op_parameters op)) then None
      else if fixed (et_value result) then Some (et_value result)
      else if match args with [a] => any a | _ => false end then nth_error args 0
      else
        match supported et_value args (op_parameters op) with
        | None => None
        | Some types =>
            let merged_args := merged types in
            if fixed merged_args then Some merged_args
            else
              match merged_parameters et_value no_flags (op_parameters op) with
              | None => None
              | Some merged_params =>
                  let r :=
                    match find (vt_test merged_args) value_type_cases with
                    | Some t => Some (vt_flags t)
                    | None => if flags_eq merged_args vts_unknown then Some merged_params
                              else None
                    end in
                  match r with
                  | Some r => if is_subset_of r (et_value result) then Some r else None
                  | None => None
                  end
              end
        end
  end.

(** expression_type_calculation.cc:201-216 *)
Definition standard_expression_type (op : operation) (index : nat) (args : list expression_type)
  : option expression_type :=
  match result_data_type op index (map et_data args),
        result_value_type op index (map et_value args) with
  | Some d, Some v => make_expression_type d v
  | _, _ => None
  end.

(** operation/std/add.cc:18-41, abs.cc:77-95 and int32.cc:18-37: the parameters and
    results of these operations *)
Definition number_type : expression_type := {| et_data := dts_all; et_value := vts_number |}.
Definition op_add : operation :=
  {| op_parameters := [[number_type]; [number_type]]; op_results := [number_type] |}.
Definition op_abs : operation :=
  {| op_parameters := [[number_type]]; op_results := [number_type] |}.
Definition op_int32 : operation :=
  {| op_parameters := [[number_type]];
     op_results := [{| et_data := dts_all; et_value := vt_flags VT_INT32 |}] |}.
