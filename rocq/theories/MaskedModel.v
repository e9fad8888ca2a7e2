(** * Masked scalars and masked arrays

    Models [feature/core/array.h], [mask.h], [masked_array.h] and [masked_scalar.h].  The value
    type [T] is any type, with the result of its default constructor [dflt] and its comparison
    [eqv], which need not obey any law (so NaN is possible).  [None] is undefined behaviour
    (access outside the array) or a failed assertion.

    Simplifications: an array is its shape and its elements in row-major order
    (boost::multi_array's default storage order), the conversions of sizes to signed indices
    (array.h:151) are exact, so sizes are less than 2^63. *)

From Coq Require Import List Bool ZArith.
From Verif Require Import IntsModel.
Import ListNotations.
Open Scope nat_scope.

(** Write an element; [None] outside the array. *)
Fixpoint put {A} (l : list A) (i : nat) (x : A) : option (list A) :=
  match l, i with
  | [], _ => None
  | _ :: l', O => Some (x :: l')
  | y :: l', S i' => match put l' i' x with Some l'' => Some (y :: l'') | None => None end
  end.

(** [for(size_t i = 0; i < n; ++i) body] with a body that updates a state *)
Fixpoint loop {S} (from n : nat) (body : nat -> S -> option S) (s : S) : option S :=
  match n with
  | O => Some s
  | Datatypes.S n' => match body from s with Some s' => loop (Datatypes.S from) n' body s' | None => None end
  end.

(** array.h:56-142 *)
Record array (T : Type) := { shape : list nat; data : list T }.
Arguments shape {T} _. Arguments data {T} _. Arguments Build_array {T} _ _.

Definition product (l : list nat) : nat := fold_right Nat.mul 1 l.
(** array.h:259-265 *)
Definition num_elements {T} (a : array T) : nat := product (shape a).

(** array.h:161-207: all elements get the value *)
Definition filled {T} (sizes : list nat) (v : T) : array T :=
  {| shape := sizes; data := repeat v (product sizes) |}.

(** [*it++ = value] for all values *)
Definition write_all {T} (values : list T) (d : list T) : option (list T) :=
  loop 0 (length values)
    (fun i d => match nth_error values i with Some v => put d i v | None => None end) d.

Section Values.
Variable T : Type.
Variable dflt : T.
Variable eqv : T -> T -> bool.

(** array.h:210-226 *)
Definition array_of_list (values : list T) : option (array T) :=
  match write_all values (repeat dflt (length values)) with
  | Some d => Some {| shape := [length values]; data := d |}
  | None => None
  end.

(** array.h:229-247: the number of columns is that of the first row ([values.begin()->size()],
    undefined if there is none); the rows are written one after the other *)
Definition array_of_rows (rows : list (list T)) : option (array T) :=
  match rows with
  | [] => None
  | row :: _ =>
      let sizes := [length rows; length row] in
      match write_all (concat rows) (repeat dflt (product sizes)) with
      | Some d => Some {| shape := sizes; data := d |}
      | None => None
      end
  end.

(** masked_scalar.h:62-64 *)
Record scalar := { s_value : T; s_mask : bool }.
(** masked_scalar.h:74-81 *)
Definition scalar_default : scalar := {| s_value := dflt; s_mask := false |}.
(** masked_scalar.h:89-97 *)
Definition scalar_of (v : T) : scalar := {| s_value := v; s_mask := false |}.
(** masked_scalar.h:123-132 *)
Definition scalar_assign (s : scalar) (v : T) : scalar := {| s_value := v; s_mask := false |}.
(** masked_scalar.h:208-217 *)
Definition scalar_eq (a b : scalar) : bool := Bool.eqb (s_mask a) (s_mask b) && eqv (s_value a) (s_value b).

(** masked_array.h:28-87 *)
Record marray := { values : array T; amask : array bool }.

(** masked_array.h:36 *)
Definition marray_default : marray :=
  {| values := {| shape := [0]; data := [] |}; amask := {| shape := [0]; data := [] |} |}.

(** masked_array.h:147-158, 192-206 *)
Definition marray_filled (sizes : list nat) (v : T) : marray :=
  {| values := filled sizes v; amask := filled sizes false |}.

(** masked_array.h:162-173 *)
Definition marray_of_list (l : list T) : option marray :=
  match array_of_list l with
  | Some a => Some {| values := a; amask := filled [length l] false |}
  | None => None
  end.

(** masked_array.h:177-188 *)
Definition marray_of_rows (rows : list (list T)) : option marray :=
  match array_of_rows rows, rows with
  | Some a, row :: _ => Some {| values := a; amask := filled [length rows; length row] false |}
  | _, _ => None
  end.

(** masked_array.h:90-113 *)
Definition marray_of_scalars (l : list scalar) : option marray :=
  let v := filled [length l] dflt in
  let m := filled [length l] false in
  match
    loop 0 (length l)
      (fun i dm =>
         match nth_error l i with
         | Some s =>
             match put (fst dm) i (s_value s), put (snd dm) i (s_mask s) with
             | Some d', Some m' => Some (d', m')
             | _, _ => None
             end
         | None => None
         end) (data v, data m)
  with
  | Some (d, m') => Some {| values := {| shape := shape v; data := d |};
                            amask := {| shape := shape m; data := m' |} |}
  | None => None
  end.

(** masked_array.h:209-225; after [break] the remaining elements are not looked at *)
Definition has_masked_values (a : marray) : option bool :=
  loop 0 (num_elements (values a))
    (fun i (result : bool) =>
       if result then Some true
       else match nth_error (data (amask a)) i with
            | Some b => if b then Some true else Some result
            | None => None
            end) false.

Definition with_mask (a : marray) (m : option (list bool)) : option marray :=
  match m with
  | Some m => Some {| values := values a; amask := {| shape := shape (amask a); data := m |} |}
  | None => None
  end.

(** masked_array.h:257-271 *)
Definition set_mask_value (a : marray) (v : T) : option marray :=
  with_mask a
    (loop 0 (num_elements (values a))
       (fun i m => match nth_error (data (values a)) i with
                   | Some x => if eqv x v then put m i true else Some m
                   | None => None
                   end) (data (amask a))).

(** An integral type for masks: [bool] or an integer type.  The comparison promotes, which
    does not change values. *)
Inductive mty := MBool | MInt (t : ity).
Definition mconv (u : mty) (z : Z) : Z :=
  match u with MBool => if Z.eqb z 0 then 0%Z else 1%Z | MInt t => conv t z end.

(** masked_array.h:274-293 *)
Definition export_mask (u : mty) (a : marray) (m : array Z) : option (array Z) :=
  if Nat.eqb (num_elements m) (num_elements (values a)) then
    let mask_value := mconv u 0 in
    let non_mask_value := mconv u 255 in
    match
      loop 0 (num_elements (values a))
        (fun i d => match nth_error (data (amask a)) i with
                    | Some b => put d i (if b then mask_value else non_mask_value)
                    | None => None
                    end) (data m)
    with
    | Some d => Some {| shape := shape m; data := d |}
    | None => None
    end
  else None.

(** masked_array.h:305-326 *)
Definition set_mask_array (a : marray) (m : array Z) (value_to_mask : Z) : option marray :=
  if Nat.eqb (num_elements m) (num_elements (values a)) then
    with_mask a
      (loop 0 (num_elements (values a))
         (fun i d => match nth_error (data m) i with
                     | Some x => if Z.eqb x value_to_mask then put d i true else Some d
                     | None => None
                     end) (data (amask a)))
  else None.

(** masked_array.h:329-335, array.h:367-374 *)
Definition mask_all (a : marray) : marray :=
  {| values := values a;
     amask := {| shape := shape (amask a); data := repeat true (num_elements (amask a)) |} |}.

(** Any sequence of the calls that change the mask. *)
Inductive masking :=
| SetMaskValue (v : T)
| SetMaskArray (m : array Z) (value_to_mask : Z)
| MaskAll.

Definition apply (a : marray) (c : masking) : option marray :=
  match c with
  | SetMaskValue v => set_mask_value a v
  | SetMaskArray m v => set_mask_array a m v
  | MaskAll => Some (mask_all a)
  end.

Fixpoint apply_all (a : marray) (cs : list masking) : option marray :=
  match cs with
  | [] => Some a
  | c :: cs' => match apply a c with Some a' => apply_all a' cs' | None => None end
  end.
End Values.

Arguments array_of_list {T} _ _. Arguments array_of_rows {T} _ _.
Arguments s_value {T} _. Arguments s_mask {T} _. Arguments Build_scalar {T} _ _.
Arguments scalar_default {T} _. Arguments scalar_of {T} _. Arguments scalar_assign {T} _ _.
Arguments scalar_eq {T} _ _ _.
Arguments values {T} _. Arguments amask {T} _. Arguments Build_marray {T} _ _.
Arguments marray_default {T}. Arguments marray_filled {T} _ _. Arguments marray_of_list {T} _ _.
Arguments marray_of_rows {T} _ _. Arguments marray_of_scalars {T} _ _.
Arguments has_masked_values {T} _. Arguments set_mask_value {T} _ _ _.
Arguments export_mask {T} _ _ _. Arguments set_mask_array {T} _ _ _. Arguments mask_all {T} _.
Arguments SetMaskValue {T} _. Arguments SetMaskArray {T} _ _. Arguments MaskAll {T}.
Arguments apply {T} _ _ _. Arguments apply_all {T} _ _ _. Arguments with_mask {T} _ _.
