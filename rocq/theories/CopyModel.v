(** * Moving elements: copy, compress, decompress and offset

    Models [algorithm/core/detail/{copy,compress,decompress,offset}.h].

    [size_t] indices are integers (see [LangModel.v]).  Counts and offsets have the types that
    the caller passes; converting to those types is explicit. *)

From Coq Require Import ZArith List Bool.
From Verif Require Import LangModel ConcModel IndexModel LoopModel PolicyModel IntsModel CoreModel.
Import ListNotations.
Open Scope Z_scope.
Open Scope prog_scope.

Section Copy.
Context {V : Type}.
Variables (ip : inpol V) (op : outpol V) (src dst : buf).

(** Element [i] of the source goes to element [d] of the destination; copy.h:45-50,
    offset.h:124-129 and 204-209 *)
Definition move_cell (i d : Z) : prog V unit :=
  ifp (is_no_data ip i) (mark_as_no_data op d) (assign src i dst d).

(** copy.h:33-54 *)
Definition copy_1d (r : range) (position : Z) : prog V unit :=
  fold_range (rbegin r) (rend r) (fun i d => move_cell i d ;;; Ret (d + 1)) position ;;; skip.

(** Sequential; copy.h:92-105.  [size_src] and [size_dst] are the sizes of the arrays. *)
Definition copy_sequential (size_src size_dst : Z) (r : range) (position : Z) : prog V unit :=
  if size_src =? size_dst then copy_1d r position else UB.

(** copy.h:155-161 *)
Definition shift_range (d : Z) (r : range) : range :=
  {| rbegin := d + rbegin r; rend := d + rend r |}.

(** copy.h:166-169: the position of a block is that of the previous one plus its size. *)
Fixpoint positions (p : Z) (rs : list range) : list Z :=
  match rs with
  | [] => []
  | r :: rs' => p :: positions (p + range_size r) rs'
  end.

(** Parallel; copy.h:129-187.  [None]: an assertion fails or, at copy.h:164, the first
    element of an empty vector is written. *)
Definition copy_parallel (nr_threads size_src size_dst : Z) (r : range) (position : Z)
  : option (list (prog V unit)) :=
  if negb (size_src =? size_dst) then None else
  match index_ranges_1d nr_threads (range_size r) with
  | None => None
  | Some [] => None
  | Some blocks =>
      let ranges := map (shift_range (rbegin r)) blocks in
      Some (map (fun rp => copy_1d (fst rp) (snd rp)) (combine ranges (positions position ranges)))
  end.
End Copy.

Section Compress.
Context {V : Type}.
Variable C : ity.    (** the type of the count *)
Variables (ip : inpol V) (a rb : buf).

(** compress.h:44-47 and 80-83; returns the updated [target_index]. *)
Definition compress_cell (i target : Z) : prog V Z :=
  ifp (notp (is_no_data ip i)) (assign a i rb target ;;; Ret (target + 1)) (Ret target).

(** compress.h:33-51; returns the count. *)
Definition compress_1d (r : range) : prog V Z :=
  target <- fold_range (rbegin r) (rend r) compress_cell (rbegin r) ;;
  Ret (conv C (target - rbegin r)).

(** compress.h:59-90 *)
Definition compress_2d (ncols : Z) (blk : block2) : prog V Z :=
  let initial_index := rbegin (fst blk) * ncols + rbegin (snd blk) in
  target <- fold_range (rbegin (fst blk)) (rend (fst blk)) (fun i target =>
      ti <- fold_range (rbegin (snd blk)) (rend (snd blk))
              (fun _ ti =>
                 target' <- compress_cell (snd ti) (fst ti) ;; Ret (target', snd ti + 1))
              (target, i * ncols + rbegin (snd blk)) ;;
      Ret (fst ti)) initial_index ;;
  Ret (conv C (target - initial_index)).

(** compress.h:98-132, the loop.  [sizes] are the sizes of the blocks.  Returns the final
    [target_index].  The copy is that of copy.h with default policies. *)
Fixpoint front_loop (sizes counts : list Z) (source target : Z) : prog V Z :=
  match sizes, counts with
  | s :: sizes', c :: counts' =>
      if c <=? s then
        copy_1d SkipNoData DontMarkNoData rb rb
          {| rbegin := source; rend := source + s |} target ;;;
        front_loop sizes' counts' (source + s) (target + c)
      else UB
  | _, _ => Ret target
  end.

Definition copy_to_front (sizes counts : list Z) : prog V Z :=
  target <- front_loop sizes counts 0 0 ;; Ret (conv C target).

(** Sequential, compress.h:164-175 and 247-259, with the assertion of the public function
    (core/compress.h:54): [size_result] is the size of the result. *)
Definition compress_sequential_1d (size size_result : Z) : prog V Z :=
  if size_result =? size then compress_1d (whole1 size) else UB.
Definition compress_sequential_2d (rows cols size_result : Z) : prog V Z :=
  if size_result =? rows * cols then compress_2d cols (whole2 rows cols) else UB.

(** Parallel: the tasks, and what is done with their counts; compress.h:195-227 and 279-311.
    The blocks of the 1D version are those of the result (compress.h:206), which has the size
    of the value. *)
Definition compress_parallel_1d (nr_threads size size_result : Z)
  : option (list (prog V Z) * (list Z -> prog V Z)) :=
  if size_result =? size then
    option_map (fun rs => (map compress_1d rs, copy_to_front (map range_size rs)))
      (index_ranges_1d nr_threads size_result)
  else None.
Definition compress_parallel_2d (nr_threads rows cols size_result : Z)
  : option (list (prog V Z) * (list Z -> prog V Z)) :=
  if size_result =? rows * cols then
    option_map (fun bs => (map (compress_2d cols) bs,
                           copy_to_front (map (fun b => ranges_size [fst b; snd b]) bs)))
      (index_ranges_2d nr_threads rows cols)
  else None.
End Compress.

Section Decompress.
Context {V : Type}.
Variables (ip : inpol V) (op : outpol V) (a rb : buf).

(** decompress.h:38-44 and 74-80; returns the updated [source_index]. *)
Definition decompress_cell (i source : Z) : prog V Z :=
  ifp (is_no_data ip i)
    (mark_as_no_data op i ;;; Ret source)
    (assign a source rb i ;;; Ret (source + 1)).

(** decompress.h:27-46 *)
Definition decompress_1d (r : range) : prog V unit :=
  fold_range (rbegin r) (rend r) decompress_cell (rbegin r) ;;; skip.

(** decompress.h:54-85 *)
Definition decompress_2d (ncols : Z) (blk : block2) : prog V unit :=
  fold_range (rbegin (fst blk)) (rend (fst blk)) (fun i source =>
      si <- fold_range (rbegin (snd blk)) (rend (snd blk))
              (fun _ si =>
                 source' <- decompress_cell (snd si) (fst si) ;; Ret (source', snd si + 1))
              (source, i * ncols + rbegin (snd blk)) ;;
      Ret (fst si)) (rbegin (fst blk) * ncols + rbegin (snd blk)) ;;;
  skip.

(** Both execution policies, decompress.h:117-160 and on, with the assertion of the public
    function (core/decompress.h:44): [size_value] is the size of the value. *)
Definition decompress_all_1d (size_value size : Z) : prog V unit :=
  if size_value <=? size then decompress_1d (whole1 size) else UB.
Definition decompress_all_2d (size_value rows cols : Z) : prog V unit :=
  if size_value <=? rows * cols then decompress_2d cols (whole2 rows cols) else UB.
End Decompress.

Section Offset.
Context {V : Type}.
Variable T : ity.    (** the type of the offset: signed, and not narrower than [int], since
                         [std::max], offset.h:39, requires both arguments to have one type *)

(** [std::max(offset, -static_cast<Offset>(nr_elements))], offset.h:39 and 88 *)
Definition clamp_negative (n offset : Z) : option Z :=
  option_map (Z.max offset) (arith false T (- conv T n)).
(** [std::min(offset, static_cast<Offset>(nr_elements))], offset.h:57 and 93 *)
Definition clamp_positive (n offset : Z) : Z := Z.min offset (conv T n).

(** offset.h:25-73; also returns the updated offset.  The assertions that follow from the
    definitions of [std::min] and [std::max] (lines 48-51, 66, 68-69) are checked too.
    [static_cast<size_t>] and the subtraction wrap. *)
Definition range_to_copy (r : range) (n offset : Z) : option (range * Z) :=
  if offset <=? 0 then
    match clamp_negative n offset with
    | None => None
    | Some o =>
        match arith false T (Z.abs o) with
        | None => None
        | Some mag =>
            let first := Z.max (size_t mag) (rbegin r) in
            let last := rend r in
            let first := Z.min first last in
            if (rbegin r <=? first) && (first <=? rend r) && (rbegin r <=? last) then
              option_map (fun r' => (r', o)) (index_range first last)
            else None
        end
    end
  else
    let o := clamp_positive n offset in
    match arith false T (Z.abs o) with
    | None => None
    | Some mag =>
        let first := rbegin r in
        let last := Z.min (rend r) (size_t (n - size_t mag)) in
        let last := Z.max first last in
        if (first <? rend r) && (last <=? rend r) then
          option_map (fun r' => (r', o)) (index_range first last)
        else None
    end.

(** offset.h:78-99 *)
Definition range_to_initialize (n offset : Z) : option range :=
  if offset <=? 0 then
    match clamp_negative n offset with
    | None => None
    | Some o => index_range (size_t (n + o)) n
    end
  else index_range 0 (size_t (clamp_positive n offset)).

Variables (ip : inpol V) (op : outpol V) (a rb : buf).

(** offset.h:108-131; [n] is the size of the value. *)
Definition offset_copy_1d (n offset : Z) (r : range) : prog V unit :=
  match range_to_copy r n offset with
  | None => UB
  | Some (r', o) => loop1 r' (fun i => move_cell ip op a rb i (i + o))
  end.

(** What is done with the elements that receive no value: offset.h:148 and 166. *)
Definition initialize := Z -> prog V unit.
Definition mark_cell : initialize := mark_as_no_data op.
Definition fill_cell (fill_value : V) : initialize := fun i => wrv rb i fill_value.

(** offset.h:138-150 and 156-168 *)
Definition offset_init_1d (init : initialize) (n offset : Z) : prog V unit :=
  match range_to_initialize n offset with
  | None => UB
  | Some r => loop1 r init
  end.

(** offset.h:177-215 *)
Definition offset_copy_2d (rows cols offset1 offset2 : Z) (blk : block2) : prog V unit :=
  match range_to_copy (fst blk) rows offset1, range_to_copy (snd blk) cols offset2 with
  | Some (r1, o1), Some (r2, o2) =>
      loop1 r1 (fun i =>
        fold_range (rbegin r2) (rend r2)
          (fun _ sd => move_cell ip op a rb (fst sd) (snd sd) ;;; Ret (fst sd + 1, snd sd + 1))
          (i * cols + rbegin r2, (i + o1) * cols + (rbegin r2 + o2)) ;;;
        skip)
  | _, _ => UB
  end.

(** offset.h:222-258 and 264-300 *)
Definition offset_init_2d (init : initialize) (rows cols offset1 offset2 : Z) : prog V unit :=
  match range_to_initialize rows offset1, range_to_initialize cols offset2 with
  | Some r1, Some r2 =>
      loop2 cols (r1, whole1 cols) init ;;; loop2 cols (whole1 rows, r2) init
  | _, _ => UB
  end.

(** Sequential, offset.h:334-365 and 583-618, and the early return of offset.h:842-844 and
    871-873 *)
Definition offset_sequential_1d (init : initialize) (n offset : Z) : prog V unit :=
  if n =? 0 then skip else
  offset_copy_1d n offset (whole1 n) ;;; offset_init_1d init n offset.
Definition offset_sequential_2d (init : initialize) (rows cols offset1 offset2 : Z)
  : prog V unit :=
  if rows * cols =? 0 then skip else
  offset_copy_2d rows cols offset1 offset2 (whole2 rows cols) ;;;
  offset_init_2d init rows cols offset1 offset2.

(** Parallel, offset.h:386-464 and 639-721: a task per block, and one for the initialisation. *)
Definition offset_parallel_1d (nr_threads : Z) (init : initialize) (n offset : Z)
  : option (list (prog V unit)) :=
  if n =? 0 then Some [] else
  option_map (fun ts => ts ++ [offset_init_1d init n offset])
    (par1 nr_threads n (offset_copy_1d n offset)).
Definition offset_parallel_2d (nr_threads : Z) (init : initialize) (rows cols offset1 offset2 : Z)
  : option (list (prog V unit)) :=
  if rows * cols =? 0 then Some [] else
  option_map (fun ts => ts ++ [offset_init_2d init rows cols offset1 offset2])
    (par2 nr_threads rows cols (offset_copy_2d rows cols offset1 offset2)).
End Offset.
