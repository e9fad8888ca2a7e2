(** * What the median and the mode of floating point numbers should be *)
From Coq Require Import ZArith List Bool SpecFloat Sorting.Sorted Sorting.Permutation.
From Verif Require Import IntsModel FloatModel IeeeSpec FloatSpec FloatAccumSpec.
Import ListNotations.
Open Scope Z_scope.

Definition no_nan (vs : list spec_float) : Prop := Forall (fun v => is_nan v = false) vs.

(** [s] are the values [vs], in increasing order. *)
Definition in_order (f : fmt) (vs s : list spec_float) : Prop :=
  Permutation vs s /\ StronglySorted (fun x y => ~ below f y x) s.

(** The C++ standard demands of a comparison that if [x] and [y], and [y] and [z], are not ordered,
    [x] and [z] are not either. *)
Definition unordered (f : fmt) (x y : spec_float) : Prop :=
  is_nan x = true \/ is_nan y = true \/ (~ below f x y /\ ~ below f y x).
Definition weak_order (f : fmt) (vs : list spec_float) : Prop :=
  forall x y z, In x vs -> In y vs -> In z vs -> unordered f x y -> unordered f y z -> unordered f x z.

(** Such values are sorted: nothing that comes later is less. *)
Definition sorts (f : fmt) (sort : list spec_float -> list spec_float) : Prop :=
  forall vs, floats f vs -> weak_order f vs ->
    Permutation vs (sort vs) /\ StronglySorted (fun x y => is_nan x = true \/ is_nan y = true \/ ~ below f y x) (sort vs).

(** [r] is halfway between [a] and [b], the two numbers in the middle: their sum is rounded, and
    half of that is. *)
Definition halfway (f : fmt) (a b r : spec_float) : Prop :=
  exists t, nearest f (fvalue f a + fvalue f b) 1 t /\ nearest f (fvalue f t) 2 r.

(** How many of the values are equal to [v], infinities included; a NaN is equal to none, and
    counted as one. *)
Definition same (f : fmt) (x y : spec_float) : bool :=
  negb (is_nan x) && negb (is_nan y) && (rank x =? rank y) && (fvalue f x =? fvalue f y).
Definition votes (f : fmt) (vs : list spec_float) (v : spec_float) : Z :=
  if is_nan v then 1 else Z.of_nat (length (filter (fun w => same f w v) vs)).
Definition is_fmode (f : fmt) (vs : list spec_float) (r : spec_float) : Prop :=
  In r vs /\ forall v, In v vs -> votes f vs v <= votes f vs r.
