(** * Casts between value types

    Models [algorithm/core/cast.h] and [algorithm/core/detail/cast.h] for [bool] and the
    integer types.  Floating-point types are not modelled. *)

From Coq Require Import ZArith Bool.
From Verif Require Import LangModel IndexModel PolicyModel LocalModel IntsModel.
Open Scope Z_scope.

(** core/type_traits.h:34-308.  Values of [bool] are 0 and 1. *)
Inductive nty := TBool | TInt (t : ity).

(** core/type_traits.h:19-24 *)
Inductive tag := BooleanTag | IntegerTag | SignedIntegerTag | UnsignedIntegerTag.

(** [number_category<T>], core/type_traits.h:43-283 *)
Definition number_category (t : nty) : tag :=
  match t with
  | TBool => BooleanTag
  | TInt i => if signed i then SignedIntegerTag else UnsignedIntegerTag
  end.

(** [base_class<Tag, integer_tag>], core/base_class.h:35-51 with core/type_traits.h:19-24 *)
Definition base_integer (t : tag) : tag :=
  match t with SignedIntegerTag | UnsignedIntegerTag => IntegerTag | _ => t end.

(** [sizeof] *)
Definition size_of (t : nty) : Z := match t with TBool => 1 | TInt i => width i / 8 end.

(** [static_cast<R>(value)], detail/cast.h:204 *)
Definition static_cast (r : nty) (z : Z) : Z :=
  match r with TBool => if z =? 0 then 0 else 1 | TInt t => conv t z end.

(** Selection of [detail::dispatch::within_range], detail/cast.h:27-121; [None]: there is no
    such specialisation, or its static assertion fails, so the program does not compile.
    [depth] bounds the forwarding from [integer_tag] to the tags themselves (lines 103-121),
    which happens once. *)
Fixpoint within_range (depth : nat) (v r : nty) (tv tr : tag) : option (Z -> Z -> bool) :=
  match tv, tr with
  | BooleanTag, BooleanTag => Some (fun _ _ => true)
  | BooleanTag, IntegerTag => Some (fun _ _ => true)
  | UnsignedIntegerTag, UnsignedIntegerTag =>
      if size_of v <=? size_of r then Some (fun _ _ => true) else None
  | SignedIntegerTag, SignedIntegerTag =>
      if size_of v <=? size_of r then Some (fun _ _ => true) else None
  | IntegerTag, IntegerTag =>
      match depth with
      | O => None
      | S d => within_range d v r (number_category v) (number_category r)
      end
  | _, _ => None
  end.

(** [cast::OutOfRangePolicy], core/cast.h:41-50 *)
Definition range_policy (v r : nty) : option (Z -> Z -> bool) :=
  within_range 1 v r (base_integer (number_category v)) (base_integer (number_category r)).

(** detail/cast.h:210-230: a unary local operation with [DiscardDomainErrors].  [rng] is the
    range policy. *)
Definition cast_0d (r : nty) (rng : Z -> Z -> bool) (ip : inpol Z) (op : outpol Z) (a rb : buf) :=
  unary_0d (static_cast r) (fun _ => true) rng ip op a rb.
Definition cast_1d (r : nty) (rng : Z -> Z -> bool) (ip : inpol Z) (op : outpol Z) (a rb : buf) :=
  unary_1d (static_cast r) (fun _ => true) rng ip op a rb.
Definition cast_2d (r : nty) (rng : Z -> Z -> bool) (ip : inpol Z) (op : outpol Z) (a rb : buf) :=
  unary_2d (static_cast r) (fun _ => true) rng ip op a rb.

(** [unary::DiscardRangeErrors], used by the overload without policies, core/cast.h:93-108 *)
Definition discard_range_errors (_ _ : Z) : bool := true.
