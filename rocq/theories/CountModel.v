(** * statistic::count

    Models [algorithm/statistic/detail/count.h] and
    [algorithm/core/binary_aggregate_operation.h], whose only user it is.

    Simplifications: integer value types, of which [==] compares the values; the value that is
    looked for is passed by reference, but nothing writes it; the out-of-range policy is
    [DiscardRangeErrors] (count.h:94-97), so that the [break]s of lines 97-101 and 197-201 are
    not taken. *)

From Coq Require Import ZArith List Bool.
From Verif Require Import LangModel ConcModel IndexModel LoopModel PolicyModel IntsModel
  AccumModel AggModel.
Import ListNotations.
Open Scope Z_scope.
Open Scope prog_scope.

Section Count.
(** As in [IntsModel.v]: whether signed overflow wraps; the result type. *)
Variables (wrapv : bool) (R : ity).

(** count.h:27-38 *)
Definition count_init (v w : Z) : Z := if v =? w then 1 else 0.

(** count.h:40-51: [result += value1 == value2 ? 1 : 0] *)
Definition count_calculate (tmp v w : Z) : option Z :=
  plus_into wrapv R S32 tmp (if v =? w then 1 else 0).

(** The policies of [values] and of [value], both asked about the index of the element; the
    argument; the value that is looked for; the result is element [k] of buffer [rb]. *)
Section Block.
Variables (ip1 ip2 : inpol Z) (a : buf) (w : Z) (rb : buf) (k : Z).

(** [std::get<0>(input_no_data_policy).is_no_data(i) || std::get<1>(...).is_no_data(i)] *)
Definition either_no_data (i : Z) : prog Z bool :=
  nd1 <- is_no_data ip1 i ;;
  if nd1 : bool then Ret true else is_no_data ip2 i.

(** algorithm.init(...); result_ = tmp_result *)
Definition init_at (i : Z) : prog Z Z :=
  v <- rdv a i ;; wrv rb k (count_init v w) ;;; Ret (count_init v w).

(** algorithm.calculate(...); result_ = tmp_result *)
Definition calculate_at (tmp i : Z) : prog Z Z :=
  v <- rdv a i ;; tmp' <- lift (count_calculate tmp v w) ;; wrv rb k tmp' ;;; Ret tmp'.

(** binary_aggregate_operation.h:30-45 *)
Definition count_0d (op : outpol Z) : prog Z unit :=
  nd <- either_no_data 0 ;;
  if nd : bool then mark_as_no_data op 0 else init_at 0 ;;; skip.

(** Lines 88-105: the remaining [n] elements; also lines 185-207, of one row. *)
Fixpoint count_rest (n : nat) (i : Z) (tmp : Z) : prog Z Z :=
  match n with
  | O => Ret tmp
  | S n' =>
      nd <- either_no_data i ;;
      if nd : bool then count_rest n' (i + 1) tmp
      else tmp' <- calculate_at tmp i ;; count_rest n' (i + 1) tmp'
  end.

(** Lines 77-107; whether data was seen. *)
Fixpoint count_first (n : nat) (i : Z) : prog Z bool :=
  match n with
  | O => Ret false
  | S n' =>
      nd <- either_no_data i ;;
      if nd : bool then count_first n' (i + 1)
      else tmp <- init_at i ;; count_rest n' (i + 1) tmp ;;; Ret true
  end.

(** Lines 56-113 *)
Definition count_1d (op : outpol Z) (r : range) : prog Z unit :=
  seen <- count_first (Z.to_nat (rend r - rbegin r)) (rbegin r) ;;
  if seen : bool then skip else mark_as_no_data op 0.

(** Lines 154-170: search the [n] remaining columns of a row for a first value; its column. *)
Fixpoint count_2d_first_row (n : nat) (j index_ : Z) : prog Z (option (Z * Z)) :=
  match n with
  | O => Ret None
  | S n' =>
      nd <- either_no_data index_ ;;
      if nd : bool then count_2d_first_row n' (j + 1) (index_ + 1)
      else tmp <- init_at index_ ;; Ret (Some (j, tmp))
  end.

(** Lines 152-175: search the [n] remaining rows.  Column [j] is not set back to the first
    column after a row: for the second and further rows it is [end2]. *)
Fixpoint count_2d_first (ncols end2 : Z) (n : nat) (i j : Z) : prog Z (option (Z * Z * Z)) :=
  match n with
  | O => Ret None
  | S n' =>
      f <- count_2d_first_row (Z.to_nat (end2 - j)) j (i * ncols + j) ;;
      match f with
      | Some (j', tmp) => Ret (Some (i, j', tmp))
      | None => count_2d_first ncols end2 n' (i + 1) (Z.max j end2)
      end
  end.

(** Lines 181-218: the [n] remaining rows, the first one from column [j] on. *)
Fixpoint count_2d_rest (ncols begin2 end2 : Z) (n : nat) (i j : Z) (tmp : Z) : prog Z unit :=
  match n with
  | O => skip
  | S n' =>
      tmp' <- count_rest (Z.to_nat (end2 - j)) (i * ncols + j) tmp ;;
      count_2d_rest ncols begin2 end2 n' (i + 1) begin2 tmp'
  end.

(** Lines 124-225 *)
Definition count_2d (op : outpol Z) (ncols : Z) (blk : block2) : prog Z unit :=
  let '(begin1, end1) := (rbegin (fst blk), rend (fst blk)) in
  let '(begin2, end2) := (rbegin (snd blk), rend (snd blk)) in
  if (begin1 <? end1) && (begin2 <? end2) then
    f <- count_2d_first ncols end2 (Z.to_nat (end1 - begin1)) begin1 begin2 ;;
    match f with
    | None => mark_as_no_data op 0
    | Some (i, j, tmp) =>
        count_2d_rest ncols begin2 end2 (Z.to_nat (end1 - i)) i (j + 1) tmp
    end
  else mark_as_no_data op 0.
End Block.

(** ** Parallel execution *)

(** Lines 441-472, 629-662: one task per block.  The tasks share the output no-data policy; the
    result of task [i] is element [i] of [results_per_block], here buffer [pb]. *)
Fixpoint number {X} (i : Z) (l : list X) : list (Z * X) :=
  match l with
  | [] => []
  | x :: l' => (i, x) :: number (i + 1) l'
  end.

Definition count_tasks_1d (nr_threads size : Z) (ip1 ip2 : inpol Z) (op : outpol Z) (a : buf)
    (w : Z) (pb : buf) : option (list (prog Z unit)) :=
  option_map (fun rs => map (fun ir => count_1d ip1 ip2 a w pb (fst ir) op (snd ir)) (number 0 rs))
    (index_ranges_1d nr_threads size).

Definition count_tasks_2d (nr_threads rows cols : Z) (ip1 ip2 : inpol Z) (op : outpol Z)
    (a : buf) (w : Z) (pb : buf) : option (list (prog Z unit)) :=
  option_map
    (fun rs => map (fun ir => count_2d ip1 ip2 a w pb (fst ir) op cols (snd ir)) (number 0 rs))
    (index_ranges_2d nr_threads rows cols).

(** Lines 237-303, 474-479 and 664-669, count.h:56-77: the results per block are summed
    sequentially.  If the result is masking so are they ([masking]); nothing sets their
    masks. *)
Definition count_join (masking : bool) (op : outpol Z) (pb rb : buf) (nblocks : Z)
  : prog Z unit :=
  aggregate_1d (sum_checked wrapv R R discard_range_errors)
    (if masking then DetectByMask pb true else SkipNoData) op pb rb nblocks.

End Count.
