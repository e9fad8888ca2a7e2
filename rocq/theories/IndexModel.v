(** * Index ranges and the partitioning of arrays in blocks

    Models [algorithm/core/index_range.{h,cc}] and [algorithm/core/index_ranges.{h,cc}].
    [size_t] arithmetic wraps modulo 2^64, as in C++ on the supported platforms.
    A failing [assert] is the outcome [None]. *)

From Coq Require Import ZArith List Bool.
Import ListNotations.
Open Scope Z_scope.

(** Conversion of a mathematical integer to [size_t] (64 bit). *)
Definition size_t_max_plus_1 : Z := 2 ^ 64.
Definition size_t (x : Z) : Z := x mod size_t_max_plus_1.

(** [IndexRange], index_range.h:29-57: members [_begin], [_end]. *)
Record range := { rbegin : Z; rend : Z }.

(** index_range.cc:35-44: constructor; the assertion is the [None] outcome. *)
Definition index_range (b e : Z) : option range :=
  if b <=? e then Some {| rbegin := b; rend := e |} else None.

(** index_range.cc:53-56 *)
Definition range_empty (r : range) : bool := rbegin r =? rend r.

(** index_range.cc:63-66 *)
Definition range_size (r : range) : Z := size_t (rend r - rbegin r).

(** index_range.cc:69-74 *)
Definition range_set_end (r : range) (e : Z) : option range :=
  if rbegin r <=? e then Some {| rbegin := rbegin r; rend := e |} else None.

(** index_range.cc:80-87 ([operator==]) *)
Definition range_eqb (r1 r2 : range) : bool :=
  (rbegin r1 =? rbegin r2) && (rend r1 =? rend r2).

(** [IndexRanges<n>], index_ranges.h:30-70, as a list of [n] ranges.
    index_ranges.h:185-191 *)
Definition ranges_empty (rs : list range) : bool := existsb range_empty rs.

(** index_ranges.h:194-206 *)
Definition ranges_size (rs : list range) : Z :=
  fold_left (fun result r => size_t (result * range_size r)) rs 1.

(** index_ranges.h:212-225 *)
Fixpoint ranges_eqb (rs1 rs2 : list range) : bool :=
  match rs1, rs2 with
  | [], [] => true
  | r1 :: rs1', r2 :: rs2' => range_eqb r1 r2 && ranges_eqb rs1' rs2'
  | _, _ => false
  end.

(** index_ranges.cc:36-41 and 80-86: [n] consecutive ranges of [block_size] elements
    starting at [offset]; also returns the final value of [offset]. *)
Fixpoint blocks_from (n : nat) (offset block_size : Z) : option (list range * Z) :=
  match n with
  | O => Some ([], offset)
  | S n' =>
      match index_range offset (size_t (offset + block_size)) with
      | None => None
      | Some r =>
          match blocks_from n' (size_t (offset + block_size)) block_size with
          | None => None
          | Some (rs, offset') => Some (r :: rs, offset')
          end
      end
  end.

(** index_ranges.cc:26-51: blocks of a 1D array.
    Simplification: [IndexRanges<1>] is represented by its only range. *)
Definition index_ranges_1d (nr_threads size : Z) : option (list range) :=
  if nr_threads =? 0 then None else
  let block_size := size / nr_threads in
  let nr_blocks := if 0 <? block_size then size / block_size else 0 in
  match blocks_from (Z.to_nat nr_blocks) 0 block_size with
  | None => None
  | Some (ranges, offset) =>
      let remainder := size_t (size - size_t (nr_blocks * block_size)) in
      if 0 <? remainder then
        match index_range offset (size_t (offset + remainder)) with
        | None => None
        | Some r => Some (ranges ++ [r])
        end
      else Some ranges
  end.

(** A block of a 2D array: row range and column range. *)
Definition block2 : Type := range * range.

(** index_ranges.cc:66-98: blocks of a 2D array.  The loop on the rows is that of the 1D
    case; every block spans all columns ([block_width]). *)
Definition index_ranges_2d (nr_threads size1 size2 : Z) : option (list block2) :=
  if nr_threads =? 0 then None else
  let block_width := size2 in
  let block_height := size1 / nr_threads in
  let nr_blocks := if 0 <? block_height then size1 / block_height else 0 in
  match index_range 0 block_width with
  | None => None
  | Some cols =>
      match blocks_from (Z.to_nat nr_blocks) 0 block_height with
      | None => None
      | Some (rows, row_offset) =>
          let remainder := size_t (size1 - size_t (nr_blocks * block_height)) in
          if 0 <? remainder then
            match index_range row_offset (size_t (row_offset + remainder)) with
            | None => None
            | Some r => Some (map (fun rr => (rr, cols)) (rows ++ [r]))
            end
          else Some (map (fun rr => (rr, cols)) rows)
      end
  end.
