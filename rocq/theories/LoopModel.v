(** * Loops over index ranges and their distribution over tasks

    The loop shapes that recur in all array algorithms of fern, and the way the parallel
    execution policy distributes them over tasks. *)

From Coq Require Import ZArith List Bool.
From Verif Require Import LangModel ConcModel IndexModel.
Import ListNotations.
Open Scope Z_scope.
Open Scope prog_scope.

Section Loops.
Context {V : Type}.

(** [for(size_t i = range.begin(); i < range.end(); ++i)], e.g.
    algorithm/core/binary_local_operation.h:101-102. *)
Definition loop1 (r : range) (body : Z -> prog V unit) : prog V unit :=
  for_range (rbegin r) (rend r) body.

(** The 2D loop of e.g. algorithm/core/binary_local_operation.h:437-475: for each row,
    [index_ = index(result, i, columns.begin())], then for each column the body at
    [index_], followed by [++index_].  [ncols] is the number of columns of the result
    ([index], feature/core/data_customization_point/array.h: row-major). *)
Definition loop2 (ncols : Z) (blk : block2) (body : Z -> prog V unit) : prog V unit :=
  for_range (rbegin (fst blk)) (rend (fst blk)) (fun i =>
    fold_range (rbegin (snd blk)) (rend (snd blk))
      (fun _ index_ => body index_ ;;; Ret (index_ + 1))
      (i * ncols + rbegin (snd blk)) ;;;
    skip).

(** Sequential execution policy: the operation on the whole range, e.g.
    binary_local_operation.h:567-583 and, for 2D, [IndexRange(0, size(value1, 0))] times
    [IndexRange(0, size(value1, 1))]. *)
Definition whole1 (size : Z) : range := {| rbegin := 0; rend := size |}.
Definition whole2 (rows cols : Z) : block2 := (whole1 rows, whole1 cols).

(** Parallel execution policy: one task per block, e.g. binary_local_operation.h:613-648.
    The caller then waits for all futures; waiting is modelled in [PoolModel.v]. *)
Definition par1 (nr_threads size : Z) (op : range -> prog V unit)
  : option (list (prog V unit)) :=
  option_map (map op) (index_ranges_1d nr_threads size).

Definition par2 (nr_threads rows cols : Z) (op : block2 -> prog V unit)
  : option (list (prog V unit)) :=
  option_map (map op) (index_ranges_2d nr_threads rows cols).

(** All tasks have completed: what the caller waits for with [future.get()]. *)
Definition all_done (ps : list (prog V unit)) : bool :=
  forallb (fun p => match p with Ret _ => true | _ => false end) ps.

End Loops.
