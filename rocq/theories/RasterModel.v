(** * Rasters of the Python extension

    Models [python/feature/masked_raster.{h,cc}], [python/feature/detail/masked_raster.h],
    [python/feature/detail/data_customization_point/masked_raster.h],
    [python/core/switch_on_value_type.h],
    [python/algorithm/algebra/elementary/{add_raster_raster,add_raster_number,
    add_number_raster,multiply,less,greater}.cc],
    [python/algorithm/core/if_{raster_raster,raster_number,number_raster}.cc],
    [algorithm/policy/{detect,mark}_no_data.h] and [core/type_traits.h] (values for no-data).

    The arithmetic on single values is that of [ArithModel] and [FloatModel].

    Simplifications: Python objects have been converted to C++ values already, so numbers are
    64-bit integers or doubles; reference counts are not modelled, so rasters are never freed;
    execution is sequential (C10 treats schedules); sizes do not overflow [size_t]. *)

From Coq Require Import ZArith List Bool SpecFloat.
From Verif Require Import IntsModel ArithModel FloatModel.
Import ListNotations.
Open Scope Z_scope.

(** What a call leads to.  [Thrown]: a C++ exception, which becomes a Python exception.
    [Aborted]: an assertion fails.  [Undefined]: undefined behaviour. *)
Inductive outcome (A : Type) := Done (a : A) | Thrown | Aborted | Undefined.
Arguments Done {A}. Arguments Thrown {A}. Arguments Aborted {A}. Arguments Undefined {A}.
Definition bind {A B} (x : outcome A) (f : A -> outcome B) : outcome B :=
  match x with Done a => f a | Thrown => Thrown | Aborted => Aborted | Undefined => Undefined end.
Notation "x <~ p ;; q" := (bind p (fun x => q)) (at level 61, p at next level, right associativity).

(** core/type_traits.h:83-96 and so on, 440-445: [no_data_value<T>()].  For a floating point
    type, [numeric_limits<T>::min()] is the smallest positive normal number.  [bool] has none. *)
Definition no_data_value (t : vty) : option num :=
  match t with
  | VBool => None
  | VInt t => Some (NInt t (if signed t then imin t else imax t))
  | VFloat32 => Some (NFloat Single (S754_finite false 8388608 (-149)))
  | VFloat64 => Some (NFloat Double (S754_finite false 4503599627370496 (-1074)))
  end.

(** core/type_traits.h:448-454: [is_no_data(value)]; both sides have the same type. *)
Definition is_no_data (n : num) : bool :=
  match no_data_value (vty_of n), n with
  | Some (NInt _ m), NInt _ z => z =? m
  | Some (NFloat _ y), NFloat _ x => SFeqb x y
  | _, _ => false
  end.

(** ** Rasters: masked_raster.h:58-66, detail/masked_raster.h:70-76

    [data] is [None] if [_pointer] is empty.  An element that has not been assigned yet is
    [None]. *)
Record raster := Raster {
  value_type : vty;
  rows : nat; cols : nat;
  origin : spec_float * spec_float;
  cell_sizes : spec_float * spec_float;
  data : option (list (option num)) }.
Definition heap := list raster.

Fixpoint replace {A} (l : list A) (i : nat) (a : A) : list A :=
  match l, i with
  | [], _ => []
  | _ :: t, O => a :: t
  | x :: t, S i => x :: replace t i a
  end.

Section Program.
(** assertions are enabled; signed integers wrap around *)
Variables debug wrapv : bool.

Definition failed_assertion {A} (otherwise : outcome A) : outcome A :=
  if debug then Aborted else otherwise.

(** data_customization_point/masked_raster.h:74-95: [get(raster, index)] *)
Definition get (h : heap) (a : nat) (i : nat) : outcome num :=
  match nth_error h a with
  | Some r =>
      match data r with
      | Some l =>
          match nth_error l i with
          | Some (Some n) => Done n
          | Some None => Undefined
          | None => failed_assertion Undefined
          end
      | None => Undefined
      end
  | None => Undefined
  end.

(** [get(raster, index) = value] *)
Definition put (h : heap) (a : nat) (i : nat) (n : num) : outcome heap :=
  match nth_error h a with
  | Some r =>
      match data r with
      | Some l =>
          if Nat.ltb i (length l) then
            Done (replace h a (Raster (value_type r) (rows r) (cols r) (origin r) (cell_sizes r)
                                 (Some (replace l i (Some n)))))
          else failed_assertion Undefined
      | None => Undefined
      end
  | None => Undefined
  end.

(** policy/mark_no_data.h:93-99, core/type_traits.h:457-463: [mark_as_no_data(index)] *)
Definition mark (h : heap) (a : nat) (i : nat) : outcome heap :=
  match nth_error h a with
  | Some r => match no_data_value (value_type r) with Some n => put h a i n | None => Undefined end
  | None => Undefined
  end.

(** ** The loops: algorithm/core/binary_local_operation.h:426-476 and so on, over the indices
    of detail/masked_raster.h:180-187 *)
Definition indices (nr_rows nr_cols : nat) : list nat :=
  flat_map (fun i => map (fun j => (i * nr_cols + j)%nat) (seq 0 nr_cols)) (seq 0 nr_rows).
Fixpoint loop (step : nat -> heap -> outcome heap) (is : list nat) (h : heap) : outcome heap :=
  match is with
  | [] => Done h
  | i :: is => h' <~ step i h ;; loop step is h'
  end.

(** An argument of an operation: a raster with [DetectNoData], a number with [SkipNoData]. *)
Inductive operand := Ref (a : nat) | Number (n : num).
Definition fetch (h : heap) (o : operand) (i : nat) : outcome num :=
  match o with Ref a => get h a i | Number n => Done n end.
(** policy/detect_no_data.h:90-96, policy/skip_no_data.h:86-90 *)
Definition detect (h : heap) (o : operand) (i : nat) : outcome bool :=
  match o with Ref a => n <~ get h a i ;; Done (is_no_data n) | Number _ => Done false end.

Section Binary.
(** The algorithm, [None]: undefined behaviour, and the range policy. *)
Variables (alg : num -> num -> option num) (within_range : num -> num -> num -> option bool).

(** binary_local_operation.h:299-325, 382-408, 441-470; arguments and result are references *)
Definition binary_cell (o1 o2 : operand) (dst : nat) (i : nat) (h : heap) : outcome heap :=
  nd1 <~ detect h o1 i ;;
  if (nd1 : bool) then mark h dst i else
  nd2 <~ detect h o2 i ;;
  if (nd2 : bool) then mark h dst i else
  v1 <~ fetch h o1 i ;;
  v2 <~ fetch h o2 i ;;
  match alg v1 v2 with
  | None => Undefined
  | Some r =>
      h' <~ put h dst i r ;;
      v1' <~ fetch h' o1 i ;;
      v2' <~ fetch h' o2 i ;;
      r' <~ get h' dst i ;;
      match within_range v1' v2' r' with
      | None => Undefined
      | Some true => Done h'
      | Some false => mark h' dst i
      end
  end.
End Binary.

(** algorithm/algebra/elementary/add.h, by way of [ArithModel] and [FloatModel] *)
Definition sum (n1 n2 : num) : option num :=
  match n1, n2 with
  | NInt t1 v1, NInt t2 v2 => option_map (NInt (result_int t1 t2)) (add wrapv t1 t2 v1 v2)
  | _, _ =>
      option_map (fun f => NFloat f (SFadd (fprec f) (femax f) (to_format f n1) (to_format f n2)))
        (result_format n1 n2)
  end.
Definition sum_within_range (n1 n2 r : num) : option bool :=
  match n1, n2, r with
  | NInt t1 v1, NInt t2 v2, NInt _ z => Some (add_within_range t1 t2 v1 v2 z)
  | _, _, NFloat _ x => fadd_within_range n1 n2 x
  | _, _, _ => None
  end.

(** algorithm/algebra/elementary/multiply.h *)
Definition product (n1 n2 : num) : option num :=
  match n1, n2 with
  | NInt t1 v1, NInt t2 v2 => option_map (NInt (result_int t1 t2)) (multiply wrapv t1 t2 v1 v2)
  | _, _ =>
      option_map (fun f => NFloat f (SFmul (fprec f) (femax f) (to_format f n1) (to_format f n2)))
        (result_format n1 n2)
  end.
Definition product_within_range (n1 n2 r : num) : option bool :=
  match n1, n2, r with
  | NInt t1 v1, NInt t2 v2, NInt _ _ => multiply_within_range wrapv t1 t2 v1 v2
  | _, _, NFloat _ x => Some (isfinite x)
  | _, _, _ => None
  end.

(** algorithm/algebra/elementary/{less,greater}.h; the result is a [uint8_t]; no range policy *)
Definition of_bool (b : bool) : num := NInt U8 (if b then 1 else 0).
Definition lesser (n1 n2 : num) : option num :=
  match n1, n2 with
  | NInt t1 v1, NInt t2 v2 => Some (of_bool (less t1 t2 v1 v2))
  | _, _ => option_map of_bool (fless n1 n2)
  end.
Definition larger (n1 n2 : num) : option num :=
  match n1, n2 with
  | NInt t1 v1, NInt t2 v2 => Some (of_bool (greater t1 t2 v1 v2))
  | _, _ => option_map of_bool (fgreater n1 n2)
  end.
Definition any_range (_ _ _ : num) : option bool := Some true.

(** [static_cast<T>(value)]; [None]: undefined.  A floating point number is truncated. *)
Definition truncated (x : spec_float) : option Z :=
  match x with
  | S754_zero _ => Some 0
  | S754_finite s m e =>
      let z := if 0 <=? e then Zpos m * 2 ^ e else Zpos m / 2 ^ (- e) in
      Some (if s then - z else z)
  | S754_infinity _ | S754_nan => None
  end.
Definition static_cast (t : vty) (n : num) : option num :=
  match t with
  | VBool => None
  | VInt t =>
      match n with
      | NInt _ z => Some (NInt t (conv t z))
      | NFloat _ x =>
          match truncated x with
          | Some z => if (imin t <=? z) && (z <=? imax t) then Some (NInt t z) else None
          | None => None
          end
      end
  | VFloat32 => Some (NFloat Single (to_format Single n))
  | VFloat64 => Some (NFloat Double (to_format Double n))
  end.

(** ** python/core/switch_on_value_type.h:17-36 and so on

    The other value types fail an assertion; without assertions nothing is done. *)
Definition supported (t : vty) : bool :=
  match t with
  | VInt U8 | VInt U32 | VInt S32 | VInt U64 | VInt S64 | VFloat32 | VFloat64 => true
  | _ => false
  end.
Definition switch {A} (t : vty) (case : outcome A) (nothing : A) : outcome A :=
  if supported t then case else failed_assertion (Done nothing).

Definition same_type (t1 t2 : vty) : bool :=
  match t1, t2 with
  | VBool, VBool | VFloat32, VFloat32 | VFloat64, VFloat64 => true
  | VInt s, VInt t => ity_eqb s t
  | _, _ => false
  end.
(** masked_raster.h:88-105: [raster<T>()] *)
Definition typed (h : heap) (a : nat) (t : vty) : outcome raster :=
  match nth_error h a with
  | Some r =>
      match data r with
      | Some _ => if same_type (value_type r) t then Done r else Thrown
      | None => Thrown
      end
  | None => Undefined
  end.
(** [raster->...]: a valid handle *)
Definition deref (h : heap) (a : nat) : outcome raster :=
  match nth_error h a with Some r => Done r | None => Undefined end.

(** detail/masked_raster.h:81-94 and masked_raster.h:72-85: a new raster with the sizes, the
    origin and the cell sizes of [like]; its elements are not assigned *)
Definition allocate (h : heap) (t : vty) (like : raster) : heap :=
  h ++ [Raster t (rows like) (cols like) (origin like) (cell_sizes like)
          (Some (repeat None (rows like * cols like)))].

(** The operations return a handle; [None] is a null pointer, Python's [None]. *)
Definition returned := (heap * option nat)%type.

(** binary_local_operation.h:1130-1131, 1321-1322, 1512-1515; detail/if.h:2411-2416, 2523-2526,
    2631-2634: the sizes of the arguments are asserted to be equal *)
Definition has_sizes (h : heap) (o : operand) (like : raster) : bool :=
  match o with
  | Ref a =>
      match nth_error h a with
      | Some r => Nat.eqb (rows r) (rows like) && Nat.eqb (cols r) (cols like)
      | None => false
      end
  | Number _ => true
  end.
Definition assert {A} (b : bool) (p : outcome A) : outcome A :=
  if b then p else failed_assertion p.

Definition run_binary alg within_range (o1 o2 : operand) (like : raster) (t : vty) (h : heap)
  : outcome returned :=
  let h' := allocate h t like in
  h'' <~ assert (has_sizes h o1 like && has_sizes h o2 like)
           (loop (binary_cell alg within_range o1 o2 (length h)) (indices (rows like) (cols like)) h') ;;
  Done (h'', Some (length h)).

(** The value type of the result: [add::result_type<T1, T2>], add_raster_raster.cc:68,
    multiply.cc:111, or [uint8_t], less.cc:98. *)
Definition combined (t1 t2 : vty) : option vty := result_value t1 t2.
Definition byte (_ _ : vty) : option vty := Some (VInt U8).

(** add_raster_raster.cc:23-73, 106-138; multiply.cc:24-44, 102-116, 183-215;
    less.cc:24-44, 89-103, 140-172; greater.cc likewise *)
Definition raster_raster alg within_range (type_of : vty -> vty -> option vty) (h : heap) (a b : nat)
  : outcome returned :=
  r1 <~ deref h a ;;
  r2 <~ deref h b ;;
  switch (value_type r1)
    (switch (value_type r2)
       (l1 <~ typed h a (value_type r1) ;;
        l2 <~ typed h b (value_type r2) ;;
        match type_of (value_type r1) (value_type r2) with
        | Some t => run_binary alg within_range (Ref a) (Ref b) l1 t h
        | None => Undefined
        end)
       (h, None))
    (h, None).
Definition add_raster_raster := raster_raster sum sum_within_range combined.
Definition multiply_raster_raster := raster_raster product product_within_range combined.
Definition less_raster_raster := raster_raster lesser any_range byte.
Definition greater_raster_raster := raster_raster larger any_range byte.

(** add_raster_number.cc:24-93, multiply.cc:47-65, 119-133, 256-286: the number is converted to
    the value type of the raster. *)
Definition raster_number alg within_range (h : heap) (a : nat) (n : num) : outcome returned :=
  r <~ deref h a ;;
  switch (value_type r)
    (l <~ typed h a (value_type r) ;;
     match static_cast (value_type r) n, combined (value_type r) (value_type r) with
     | Some m, Some t => run_binary alg within_range (Ref a) (Number m) l t h
     | _, _ => Undefined
     end)
    (h, None).
(** add_number_raster.cc:24-94, multiply.cc:68-86, 136-150, 221-251 *)
Definition number_raster alg within_range (h : heap) (n : num) (a : nat) : outcome returned :=
  r <~ deref h a ;;
  switch (value_type r)
    (l <~ typed h a (value_type r) ;;
     match static_cast (value_type r) n, combined (value_type r) (value_type r) with
     | Some m, Some t => run_binary alg within_range (Number m) (Ref a) l t h
     | _, _ => Undefined
     end)
    (h, None).
Definition add_raster_number := raster_number sum sum_within_range.
Definition add_number_raster := number_raster sum sum_within_range.
Definition multiply_raster_number := raster_number product product_within_range.
Definition multiply_number_raster := number_raster product product_within_range.

(** less.cc:47-86, 106-135, 178-243; greater.cc likewise: the number is not converted. *)
Definition compare_raster_number alg (h : heap) (a : nat) (n : num) : outcome returned :=
  r <~ deref h a ;;
  switch (value_type r)
    (l <~ typed h a (value_type r) ;;
     run_binary alg any_range (Ref a) (Number n) l (VInt U8) h)
    (h, None).
Definition compare_number_raster alg (h : heap) (n : num) (a : nat) : outcome returned :=
  r <~ deref h a ;;
  switch (value_type r)
    (l <~ typed h a (value_type r) ;;
     run_binary alg any_range (Number n) (Ref a) l (VInt U8) h)
    (h, None).
Definition less_raster_number := compare_raster_number lesser.
Definition less_number_raster := compare_number_raster lesser.
Definition greater_raster_number := compare_raster_number larger.
Definition greater_number_raster := compare_number_raster larger.

(** ** In place: add_raster_raster.cc:46-56, 78-101; multiply.cc:89-99, 155-178 *)
Definition in_place alg within_range (h : heap) (self other : nat) : outcome heap :=
  r1 <~ deref h self ;;
  r2 <~ deref h other ;;
  assert (same_type (value_type r2) (value_type r1)) (switch (value_type r1)
    (l1 <~ typed h self (value_type r1) ;;
     l2 <~ typed h other (value_type r1) ;;
     assert (has_sizes h (Ref other) l1)
       (loop (binary_cell alg within_range (Ref self) (Ref other) self) (indices (rows l1) (cols l1)) h))
    h).
Definition iadd := in_place sum sum_within_range.
Definition imultiply := in_place product product_within_range.

(** ** if: algorithm/core/detail/if.h:838-869, 891-952, 974-1039 *)

(** The conversion of a condition to [bool] *)
Definition truth (n : num) : bool :=
  match n with
  | NInt _ z => negb (z =? 0)
  | NFloat _ x => negb (SFeqb x (S754_zero false))
  end.
Definition choose (h : heap) (o : operand) (dst i : nat) : outcome heap :=
  nd <~ detect h o i ;;
  if (nd : bool) then mark h dst i else v <~ fetch h o i ;; put h dst i v.
Definition if_cell (c : nat) (o1 o2 : operand) (dst : nat) (i : nat) (h : heap) : outcome heap :=
  nd <~ detect h (Ref c) i ;;
  if (nd : bool) then mark h dst i else
  v <~ get h c i ;;
  if truth v then choose h o1 dst i else choose h o2 dst i.
Definition run_if (c : nat) (o1 o2 : operand) (like : raster) (t : vty) (h : heap)
  : outcome returned :=
  let h' := allocate h t like in
  h'' <~ assert (has_sizes h o1 like && has_sizes h o2 like)
           (loop (if_cell c o1 o2 (length h)) (indices (rows like) (cols like)) h') ;;
  Done (h'', Some (length h)).

(** if_raster_raster.cc:24-112 *)
Definition if_raster_raster (h : heap) (c a b : nat) : outcome returned :=
  rc <~ deref h c ;;
  r1 <~ deref h a ;;
  r2 <~ deref h b ;;
  assert (same_type (value_type r1) (value_type r2)) (switch (value_type rc)
    (switch (value_type r1)
       (l <~ typed h c (value_type rc) ;;
        l1 <~ typed h a (value_type r1) ;;
        l2 <~ typed h b (value_type r1) ;;
        match combined (value_type r1) (value_type r1) with
        | Some t => run_if c (Ref a) (Ref b) l t h
        | None => Undefined
        end)
       (h, None))
    (h, None)).
(** if_raster_number.cc:24-116 *)
Definition if_raster_number (h : heap) (c a : nat) (n : num) : outcome returned :=
  rc <~ deref h c ;;
  r <~ deref h a ;;
  switch (value_type rc)
    (switch (value_type r)
       (l <~ typed h c (value_type rc) ;;
        l1 <~ typed h a (value_type r) ;;
        match static_cast (value_type r) n with
        | Some m => run_if c (Ref a) (Number m) l (value_type r) h
        | None => Undefined
        end)
       (h, None))
    (h, None).
(** if_number_raster.cc:24-119 *)
Definition if_number_raster (h : heap) (c : nat) (n : num) (a : nat) : outcome returned :=
  rc <~ deref h c ;;
  r <~ deref h a ;;
  switch (value_type rc)
    (switch (value_type r)
       (l <~ typed h c (value_type rc) ;;
        l1 <~ typed h a (value_type r) ;;
        match static_cast (value_type r) n with
        | Some m => run_if c (Number m) (Ref a) l (value_type r) h
        | None => Undefined
        end)
       (h, None))
    (h, None).

(** ** Construction *)

(** masked_raster.cc:51-79: all elements are 0 *)
Definition zero_of (t : vty) : num :=
  match t with
  | VBool => NInt U8 0
  | VInt t => NInt t 0
  | VFloat32 => NFloat Single (S754_zero false)
  | VFloat64 => NFloat Double (S754_zero false)
  end.
Definition of_sizes (nr_rows nr_cols : nat) org cs (t : vty) : outcome raster :=
  switch t
    (Done (Raster t nr_rows nr_cols org cs (Some (repeat (Some (zero_of t)) (nr_rows * nr_cols)))))
    (Raster t nr_rows nr_cols org cs None).

(** masked_raster.cc:16-48: a missing row or item is an [IndexError].  [values] hold numbers of
    type [t]: the conversion of Python objects is not modelled. *)
Definition item {A} (l : list (list A)) (i j : nat) : outcome A :=
  match nth_error l i with
  | Some row => match nth_error row j with Some a => Done a | None => Thrown end
  | None => Thrown
  end.
Definition copied_item (t : vty) (values : list (list num)) (mask : list (list bool)) (i j : nat)
  : outcome num :=
  m <~ item mask i j ;;
  if (m : bool) then
    match no_data_value t with Some n => Done n | None => Undefined end
  else item values i j.
Fixpoint copied (t : vty) values mask (is : list (nat * nat)) : outcome (list (option num)) :=
  match is with
  | [] => Done []
  | (i, j) :: is =>
      n <~ copied_item t values mask i j ;;
      l <~ copied t values mask is ;;
      Done (Some n :: l)
  end.
(** A row of [values] or [mask] that does not exist, or is not used: line 28 and 29 fetch the
    rows of both lists for every row of the raster, also if there are no columns. *)
Definition rows_exist {A B} (values : list (list A)) (mask : list (list B)) (nr_rows : nat) : bool :=
  Nat.leb nr_rows (length values) && Nat.leb nr_rows (length mask).
(** masked_raster.cc:84-122 *)
Definition of_lists (values : list (list num)) (mask : list (list bool)) org cs (t : vty)
  : outcome raster :=
  match values with
  | [] => Thrown
  | row :: _ =>
      let nr_rows := length values in
      let nr_cols := length row in
      switch t
        (if rows_exist values mask nr_rows then
           l <~ copied t values mask
                  (flat_map (fun i => map (fun j => (i, j)) (seq 0 nr_cols)) (seq 0 nr_rows)) ;;
           Done (Raster t nr_rows nr_cols org cs (Some l))
         else Thrown)
        (Raster t nr_rows nr_cols org cs None)
  end.
End Program.
