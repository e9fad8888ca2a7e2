(** * What gradients are expected to be *)
From Coq Require Import ZArith List Bool.
From Verif Require Import LangModel IndexModel IndexSpec LoopSpec PolicyModel LocalSpec
  GradientModel ConvolveSpec.
Import ListNotations.
Open Scope Z_scope.

Section GradientSpec.
Context {V D : Type}.
Variable ds : differences V D.
Variables (ip : inpol V) (src : buf) (rows cols : Z) (m : mem V).

(** The value of a cell, unless it is no-data or outside of the raster. *)
Definition cell_value (c : Z * Z) : option V :=
  if in_image rows cols c then value_at ip src cols m c else None.

(** The gradient at [value], between the cells at distance [d] before and after it. *)
Definition slope_between (d : D) (before : option V) (value : V) (after : option V) : V :=
  match before, after with
  | Some b, Some a => gradient ds b a (add_distance ds d d)
  | Some b, None => gradient ds b value d
  | None, Some a => gradient ds value a d
  | None, None => zero ds
  end.

(** [None] is no-data. *)
Definition expected_x (d : D) (c : Z * Z) : option V :=
  let '(i, j) := c in
  option_map (fun v => slope_between d (cell_value (i, j - 1)) v (cell_value (i, j + 1)))
    (cell_value c).
Definition expected_y (d : D) (c : Z * Z) : option V :=
  let '(i, j) := c in
  option_map (fun v => slope_between d (cell_value (i - 1, j)) v (cell_value (i + 1, j)))
    (cell_value c).

(** The raster has at least two cells in one direction, and one in the other. *)
Definition at_least (rows' cols' : Z) : Prop :=
  rows' <= rows < 2 ^ 64 /\ cols' <= cols < 2 ^ 64.
End GradientSpec.
