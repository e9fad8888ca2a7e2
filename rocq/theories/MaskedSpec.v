(** * What masked arrays are expected to do *)
From Coq Require Import List Bool ZArith.
From Verif Require Import IntsModel MaskedModel.
Import ListNotations.
Open Scope nat_scope.

(** The elements of an array, the values and the mask of a masked array agree in number; holds
    for all arrays that the constructors make (C56_construct and so on). *)
Definition sound_array {T} (a : array T) : Prop := length (data a) = product (shape a).
Definition sound {T} (a : marray T) : Prop :=
  sound_array (values a) /\ sound_array (amask a) /\ shape (amask a) = shape (values a).

Definition element {T} (a : array T) (i : nat) (v : T) : Prop := nth_error (data a) i = Some v.
Definition masked {T} (a : marray T) (i : nat) : Prop := element (amask a) i true.

(** Nothing but the masking differs. *)
Definition same_values {T} (a b : marray T) : Prop := values a = values b /\ shape (amask a) = shape (amask b).

(** The elements that a call selects for masking. *)
Definition selects {T} (eqv : T -> T -> bool) (a : marray T) (c : masking T) (i : nat) : Prop :=
  match c with
  | SetMaskValue v => exists x, element (values a) i x /\ eqv x v = true
  | SetMaskArray m v => element m i v
  | MaskAll => i < num_elements (values a)
  end.

(** A call that may be made. *)
Definition acceptable {T} (a : marray T) (c : masking T) : Prop :=
  match c with SetMaskArray m _ => sound_array m /\ num_elements m = num_elements (values a) | _ => True end.
