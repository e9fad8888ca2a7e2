(** * What index ranges denote

    A range denotes the list of its indices; an n-dimensional range denotes the list of
    its cells, the last dimension varying fastest.  Nothing here depends on how fern
    computes blocks. *)

From Coq Require Import ZArith List Bool.
From Verif Require Import IndexModel.
Import ListNotations.
Open Scope Z_scope.

(** [lo, lo+1, ..., hi-1] *)
Definition zrange (lo hi : Z) : list Z :=
  map (fun k => lo + Z.of_nat k) (seq 0 (Z.to_nat (hi - lo))).

Definition indices (r : range) : list Z := zrange (rbegin r) (rend r).

(** Cells of an n-dimensional range. *)
Fixpoint cells (rs : list range) : list (list Z) :=
  match rs with
  | [] => [[]]
  | r :: rs' => flat_map (fun i => map (cons i) (cells rs')) (indices r)
  end.

(** Cells of a 2D block, in row-major order. *)
Definition cells2 (blk : block2) : list (Z * Z) :=
  flat_map (fun i => map (fun j => (i, j)) (indices (snd blk))) (indices (fst blk)).

(** All cells of a raster, in row-major order. *)
Definition raster_cells (rows cols : Z) : list (Z * Z) :=
  flat_map (fun i => map (fun j => (i, j)) (zrange 0 cols)) (zrange 0 rows).
