(** * What operations on rasters from Python should do *)
From Coq Require Import ZArith List Bool SpecFloat.
From Verif Require Import IntsModel ArithModel FloatModel IeeeSpec FloatSpec RasterModel.
Import ListNotations.
Open Scope Z_scope.

(** A cell without data holds the largest number of an unsigned type, the smallest number of a
    signed type, and the smallest positive normal number of a floating point type: [2 ^ -126] and
    [2 ^ -1022], in the steps of [value]. *)
Definition blank (n : num) : bool :=
  match n with
  | NInt t z => z =? (if signed t then imin t else imax t)
  | NFloat Single x => fvalue Single x =? 2 ^ 948
  | NFloat Double x => fvalue Double x =? 2 ^ 52
  end.
Definition kept (n : num) : option num := if blank n then None else Some n.

(** The value types of rasters *)
Definition raster_type (t : vty) : Prop :=
  In t [VInt U8; VInt U32; VInt S32; VInt U64; VInt S64; VFloat32; VFloat64].

(** What a reader sees at a cell: a number, or [None] if there is no data *)
Definition reading (r : raster) (i : nat) : option num :=
  match data r with
  | Some l => match nth_error l i with Some (Some n) => kept n | _ => None end
  | None => None
  end.
Definition size (r : raster) : nat := (rows r * cols r)%nat.

(** A raster: a number of its type in every cell *)
Definition proper (r : raster) : Prop :=
  raster_type (value_type r) /\
  exists l, data r = Some l /\ length l = size r /\
    forall i, (i < size r)%nat -> exists n, nth_error l i = Some (Some n) /\ vty_of n = value_type r /\ argument n.
Definition holds (h : heap) (a : nat) (r : raster) : Prop := nth_error h a = Some r /\ proper r.
Definition same_shape (r s : raster) : Prop := rows r = rows s /\ cols r = cols s.
Definition placed_like (r s : raster) : Prop :=
  same_shape r s /\ origin r = origin s /\ cell_sizes r = cell_sizes s.

(** The call returned a new raster [r], and nothing else changed. *)
Definition returns (h : heap) (out : outcome returned) (r : raster) : Prop :=
  exists h', out = Done (h', Some (length h)) /\ length h' = S (length h) /\
    (forall a, (a < length h)%nat -> nth_error h' a = nth_error h a) /\
    holds h' (length h) r.
(** The call changed the raster [a] into [r], and nothing else. *)
Definition changes (h : heap) (out : outcome heap) (a : nat) (r : raster) : Prop :=
  exists h', out = Done h' /\ length h' = length h /\
    (forall b, b <> a -> nth_error h' b = nth_error h b) /\ holds h' a r.

(** ** Value types of results *)
Definition result_of (t1 t2 : vty) : vty :=
  match t1, t2 with
  | VFloat64, _ | _, VFloat64 => VFloat64
  | VFloat32, _ | _, VFloat32 => VFloat32
  | VInt s, VInt t =>
      VInt (match s, t with
            | U8, x | x, U8 => x
            | U32, U32 => U32
            | U32, U64 | U64, U32 | U64, U64 => U64
            | S32, S32 => S32
            | _, _ => S64
            end)
  | _, _ => VBool
  end.
Definition integer_of (t1 t2 : ity) : ity :=
  match result_of (VInt t1) (VInt t2) with VInt t => t | _ => t1 end.

Definition in_range (t : ity) (z : Z) : bool := (imin t <=? z) && (z <=? imax t).
Definition if_in_range (t : ity) (z : Z) : option num := if in_range t z then kept (NInt t z) else None.

(** ** Sums and products

    A cell has no data if one of its arguments has no data.  Otherwise [f] relates the arguments
    to what is read. *)
Definition cellwise (f : num -> num -> option num -> Prop) (o1 o2 out : option num) : Prop :=
  match o1, o2 with
  | Some n1, Some n2 => f n1 n2 out
  | _, _ => out = None
  end.

(** Integers: the sum, unless it does not fit in the type of the result or is the number that
    stands for no data.  If one is signed and the other is not, and the signed one is not
    positive, there is no data, unless the unsigned one is 0; with an unsigned number of 2 ^ 63 or
    more there may be a wrong number. *)
Definition integer_sum (t1 t2 : ity) (v1 v2 : Z) : option num :=
  let R := integer_of t1 t2 in
  if Bool.eqb (signed t1) (signed t2) then if_in_range R (v1 + v2)
  else
    let s := if signed t1 then v1 else v2 in
    let u := if signed t1 then v2 else v1 in
    if 0 <? s then if_in_range R (s + u)
    else if u =? 0 then kept (NInt R s)
    else if 2 ^ 63 <=? s + u then kept (NInt R (s + u - 2 ^ 64))
    else None.

(** Integers: the product, unless it does not fit in the type of the result; the smallest number
    of a signed type is among those that stand for no data. *)
Definition integer_product (t1 t2 : ity) (v1 v2 : Z) : option num := if_in_range (integer_of t1 t2) (v1 * v2).

(** Floating point numbers: what is nearest to the result [op] of the two converted arguments (in
    steps, to be divided by [unit]), unless that overflows. *)
Definition of_element (R : fmt) (e : element) : option num :=
  match e with Written r => kept (NFloat R r) | _ => None end.
Definition float_result (op : Z -> Z -> Z) (unit : Z) (n1 n2 : num) (out : option num) : Prop :=
  let R := format_of n1 n2 in
  exists x y e, converted R n1 x /\ converted R n2 y /\
    has_result R (op (fvalue R x) (fvalue R y)) unit e /\ out = of_element R e.

Definition sum_of (n1 n2 : num) (out : option num) : Prop :=
  match n1, n2 with
  | NInt t1 v1, NInt t2 v2 => out = integer_sum t1 t2 v1 v2
  | _, _ =>
      if finite n1 && finite n2 then float_result Z.add 1 n1 n2 out
      else if integer n1 || integer n2 then
        (** an infinity or NaN, added to an integer, stays *)
        exists r, out = Some (NFloat (format_of n1 n2) r) /\ is_finite r = false
      else out = None
  end.
Definition product_of (n1 n2 : num) (out : option num) : Prop :=
  match n1, n2 with
  | NInt t1 v1, NInt t2 v2 => out = integer_product t1 t2 v1 v2
  | _, _ => if finite n1 && finite n2 then float_result Z.mul one n1 n2 out else out = None
  end.

(** The operation has a defined result: signed integers wrap around ([wrapv]), or nothing is
    beyond the range of the result. *)
Definition is_defined (wrapv : bool) (op : Z -> Z -> Z) (o1 o2 : option num) : Prop :=
  match o1, o2 with
  | Some (NInt t1 v1), Some (NInt t2 v2) =>
      let R := integer_of t1 t2 in
      wrapv = true \/ signed R = false \/
      in_range R v1 = true /\ in_range R v2 = true /\ in_range R (op v1 v2) = true
  | _, _ => True
  end.

(** ** Numbers

    Python numbers are 64-bit integers or doubles. *)
Definition python_number (n : num) : Prop :=
  argument n /\ (vty_of n = VInt S64 \/ vty_of n = VFloat64).

(** [m] is [n], converted to the type [t]: integers wrap around; floating point numbers are
    truncated, if what is left fits; otherwise the nearest number. *)
Definition converts (t : vty) (n m : num) : Prop :=
  vty_of m = t /\ argument m /\
  match n, m with
  | NInt _ z, NInt t y => exists k, z = y + k * modulus t
  | NFloat _ x, NInt _ y => is_finite x = true /\ y = Z.quot (value n) one
  | NInt _ z, NFloat R y => nearest R (value n) 1 y
  | NFloat _ x, NFloat R y =>
      if is_finite x then
        (nearest R (value n) 1 y /\ ~ overflows R (value n) 1) \/
        (overflows R (value n) 1 /\ y = S754_infinity (value n <? 0))
      else y = x
  end.
(** There is no such number: what is left after truncation does not fit. *)
Definition inconvertible (t : vty) (n : num) : Prop :=
  match t, n with
  | VInt t, NFloat _ x => is_finite x = false \/ in_range t (Z.quot (value n) one) = false
  | _, _ => False
  end.

(** ** In place *)

(** The number of type [t] that is left of [z] after it has been reduced to the bits of the type *)
Definition wraps_to (t : ity) (z y : Z) : Prop := in_range t y = true /\ exists k, z = y + k * modulus t.

(** The sum of integers is never checked. *)
Definition sum_in_place (n1 n2 : num) (out : option num) : Prop :=
  match n1, n2 with
  | NInt t v1, NInt _ v2 => exists r, wraps_to t (v1 + v2) r /\ out = kept (NInt t r)
  | _, _ => sum_of n1 n2 out
  end.
(** Of the product [r] of integers it is checked whether [r], multiplied by the second argument
    again (by itself, if a raster is multiplied by itself), fits. *)
Definition product_in_place (same : bool) (n1 n2 : num) (out : option num) : Prop :=
  match n1, n2 with
  | NInt t v1, NInt _ v2 =>
      exists r, wraps_to t (v1 * v2) r /\
        out = if Z.abs (r * (if same then r else v2)) <=? imax t then kept (NInt t r) else None
  | _, _ => product_of n1 n2 out
  end.

(** ** Comparisons *)
Definition truth_value (b : bool) : option num := Some (NInt U8 (if b then 1 else 0)).

(** Integers are compared as such, unless one is of an unsigned type of at least the size of the
    type of the other, which is signed: then a negative number counts as that number plus [2 ^ 32]
    or [2 ^ 64].  Others are compared after rounding to the floating point type.  NaN is not less
    than anything, and nothing is less than NaN. *)
Definition unsigned_meeting (t1 t2 : ity) : bool :=
  match t1, t2 with
  | U32, S32 | S32, U32 | U64, S32 | S32, U64 | U64, S64 | S64, U64 => true
  | _, _ => false
  end.
Definition counts_as (t1 t2 : ity) (v : Z) : Z :=
  if unsigned_meeting t1 t2 && (v <? 0) then
    v + (if (width t1 =? 64) || (width t2 =? 64) then 2 ^ 64 else 2 ^ 32)
  else v.
Definition is_less (n1 n2 : num) (out : option num) : Prop :=
  match n1, n2 with
  | NInt t1 v1, NInt t2 v2 => out = truth_value (counts_as t1 t2 v1 <? counts_as t1 t2 v2)
  | _, _ =>
      if nan n1 || nan n2 then out = truth_value false
      else
        let R := format_of n1 n2 in
        exists x y b, compared R n1 x /\ compared R n2 y /\ (b = true <-> below R x y) /\ out = truth_value b
  end.

(** ** Choices *)
Definition is_zero (n : num) : bool :=
  match n with NInt _ z => z =? 0 | NFloat f x => is_finite x && (fvalue f x =? 0) end.
(** What is read if the condition, the first and the second choice are read as given; a condition
    other than 0 chooses the first. *)
Definition chosen (c o1 o2 : option num) : option num :=
  match c with
  | None => None
  | Some n => if is_zero n then o2 else o1
  end.

(** ** Construction

    [values] and [mask] are lists of rows.  What is to be read at a row and a column: nothing, if
    the mask says so, otherwise the number given.  There is no such [out] if the number, or what the
    mask says, is missing. *)
Definition given (values : list (list num)) (mask : list (list bool)) (i j : nat) (out : option num) : Prop :=
  exists marks m, nth_error mask i = Some marks /\ nth_error marks j = Some m /\
    if m then out = None
    else exists row n, nth_error values i = Some row /\ nth_error row j = Some n /\ out = kept n.
(** The raster has as many rows as there are values, and as many columns as the first of them. *)
Definition complete (values : list (list num)) (mask : list (list bool)) : Prop :=
  exists first rest, values = first :: rest /\ (length values <= length mask)%nat /\
    forall i j, (i < length values)%nat -> (j < length first)%nat -> exists out, given values mask i j out.
