(** * Gradients

    Models [algorithm/algebra/vector/detail/gradient.h]: the difference between neighbouring
    elements of a raster, divided by their distance.

    Simplifications: the arithmetic ([gradient], [0], adding distances) is a parameter; it
    need not obey any law, so floating point arithmetic is one.  Subtractions on [size_t] wrap
    ([size_t], IndexModel.v); indices of existing elements are integers (see LangModel.v). *)

From Coq Require Import ZArith List Bool.
From Verif Require Import LangModel ConcModel IndexModel LoopModel PolicyModel CoreModel.
Import ListNotations.
Open Scope Z_scope.
Open Scope prog_scope.

(** [V] are the values, [D] the distances. *)
Record differences (V D : Type) := {
  gradient : V -> V -> D -> V;   (** gradient.h:22-31: [(value2 - value1) / distance] *)
  zero : V;                      (** the [0] of e.g. gradient.h:78 *)
  add_distance : D -> D -> D     (** [distance1 + distance1], gradient.h:48, 199 *)
}.
Arguments gradient {V D}. Arguments zero {V D}. Arguments add_distance {V D}.

Section Gradient.
Context {V D : Type}.
Variable ds : differences V D.
Variable cell_size : Z -> D.     (** data_customization_point/raster.h:101-108 *)
Variables (ip : inpol V) (op : outpol V) (src dst : buf).
Variables (rows cols : Z).      (** [size(value, 0)], [size(value, 1)] *)

(** [get(result, center) = gradient(get(value, i1), get(value, i2), distance)] *)
Definition write_gradient (i1 i2 : Z) (distance : D) (center : Z) : prog V unit :=
  v1 <- rdv src i1 ;; v2 <- rdv src i2 ;; wrv dst center (gradient ds v1 v2 distance).

Definition valid (i : Z) : prog V bool := notp (is_no_data ip i).

(** The element at the border and its only neighbour, which follows it: gradient.h:63-80 and
    215-233.  [inside] is the assertion. *)
Definition first_cell (inside : bool) (distance1 : D) (center next : Z) : prog V unit :=
  ifp (is_no_data ip center) (mark_as_no_data op center)
    (if inside then
       ifp (valid next)
         (write_gradient center next distance1 center)
         (wrv dst center (zero ds))
     else UB).

(** The same for a neighbour that precedes it: gradient.h:100-117 and 253-270 *)
Definition last_cell (inside : bool) (distance1 : D) (previous center : Z) : prog V unit :=
  ifp (is_no_data ip center) (mark_as_no_data op center)
    (if inside then
       ifp (valid previous)
         (write_gradient previous center distance1 center)
         (wrv dst center (zero ds))
     else UB).

(** An element between two neighbours: gradient.h:139-175 and 292-328 *)
Definition inner_cell (inside : bool) (distance1 distance2 : D) (previous center next : Z)
  : prog V unit :=
  ifp (is_no_data ip center) (mark_as_no_data op center)
    (if inside then
       ifp (valid previous)
         (ifp (valid next)
            (write_gradient previous next distance2 center)
            (write_gradient previous center distance1 center))
         (ifp (valid next)
            (write_gradient center next distance1 center)
            (wrv dst center (zero ds)))
     else UB).

(** gradient.h:39-182 *)
Definition gradient_x_2d (blk : block2) : prog V unit :=
  let '(range1, range2) := blk in
  let distance1 := cell_size 0 in
  let distance2 := add_distance ds distance1 distance1 in
  (* Left border, gradient.h:53-85 *)
  for_range (rbegin range1) (rend range1) (fun i =>
    let center := i * cols + rbegin range2 in
    fold_range (rbegin range2) 1 (fun j '(center, next) =>
      first_cell (j + 1 <? cols) distance1 center next ;;;
      Ret (center + 1, next + 1)) (center, center + 1) ;;;
    skip) ;;;
  (* Right border, gradient.h:89-122 *)
  for_range (rbegin range1) (rend range1) (fun i =>
    let center := i * cols + size_t (cols - 1) in
    if 0 <? center then
      fold_range (size_t (cols - 1)) (rend range2) (fun j '(previous, center) =>
        last_cell (0 <? j) distance1 previous center ;;;
        Ret (previous + 1, center + 1)) (center - 1, center) ;;;
      skip
    else UB) ;;;
  (* Inner part, gradient.h:127-181 *)
  for_range (rbegin range1) (rend range1) (fun i =>
    let center := i * cols + Z.max 1 (rbegin range2) in
    fold_range (Z.max 1 (rbegin range2)) (Z.min (size_t (cols - 1)) (rend range2))
      (fun j '(previous, center, next) =>
        inner_cell ((0 <? j) && (j + 1 <? cols)) distance1 distance2 previous center next ;;;
        Ret (previous + 1, center + 1, next + 1)) (center - 1, center, center + 1) ;;;
    skip).

(** gradient.h:190-335 *)
Definition gradient_y_2d (blk : block2) : prog V unit :=
  let '(range1, range2) := blk in
  let distance1 := cell_size 1 in
  let distance2 := add_distance ds distance1 distance1 in
  (* Top border, gradient.h:204-238 *)
  for_range (rbegin range1) 1 (fun i =>
    fold_range (rbegin range2) (rend range2) (fun j '(center, bottom) =>
      first_cell (i + 1 <? rows) distance1 center bottom ;;;
      Ret (center + 1, bottom + 1))
      (i * cols + rbegin range2, (i + 1) * cols + rbegin range2) ;;;
    skip) ;;;
  (* Bottom border, gradient.h:242-275 *)
  for_range (size_t (rows - 1)) (rend range1) (fun i =>
    fold_range (rbegin range2) (rend range2) (fun j '(top, center) =>
      last_cell (0 <? i) distance1 top center ;;;
      Ret (top + 1, center + 1))
      (size_t (i - 1) * cols + rbegin range2, i * cols + rbegin range2) ;;;
    skip) ;;;
  (* Inner part, gradient.h:280-334 *)
  for_range (Z.max 1 (rbegin range1)) (Z.min (size_t (rows - 1)) (rend range1)) (fun i =>
    fold_range (rbegin range2) (rend range2) (fun j '(top, center, bottom) =>
      inner_cell ((0 <? i) && (i + 1 <? rows)) distance1 distance2 top center bottom ;;;
      Ret (top + 1, center + 1, bottom + 1))
      (size_t (i - 1) * cols + rbegin range2, i * cols + rbegin range2,
       (i + 1) * cols + rbegin range2) ;;;
    skip).

(** gradient.h:366-384, 464-482 *)
Definition gradient_x_sequential : prog V unit := gradient_x_2d (whole2 rows cols).
Definition gradient_y_sequential : prog V unit := gradient_y_2d (whole2 rows cols).

(** gradient.h:401-435, 499-533: one task per block *)
Definition gradient_x_parallel (nr_threads : Z) : option (list (prog V unit)) :=
  par2 nr_threads rows cols gradient_x_2d.
Definition gradient_y_parallel (nr_threads : Z) : option (list (prog V unit)) :=
  par2 nr_threads rows cols gradient_y_2d.

End Gradient.
