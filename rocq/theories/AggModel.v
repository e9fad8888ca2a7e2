(** * Aggregate operations

    Models [algorithm/core/unary_aggregate_operation.h] for an arbitrary accumulator, and
    [statistic::count] on top of [algorithm/core/binary_aggregate_operation.h].

    Simplifications: a 0D argument or result is element 0 of its buffer; the Boolean that the
    accumulator returns stands for [Adder::add] and [Adder::merge] (lines 41-107). *)

From Coq Require Import ZArith List Bool.
From Verif Require Import LangModel ConcModel IndexModel LoopModel PolicyModel AccumModel.
Import ListNotations.
Open Scope Z_scope.
Open Scope prog_scope.

Section Unary.
Context {V A : Type}.
Variable acc : accu V A.

Definition lift {X} (o : option X) : prog V X :=
  match o with Some x => Ret x | None => UB end.

(** What [operation_0d], [operation_1d] and [operation_2d] return: whether the accumulator
    has been initialised, whether its result is within range, the accumulator. *)
Definition partial := (bool * bool * A)%type.

Section Blocks.
Variables (ip : inpol V) (a : buf).

(** [Adder_::add(accumulator, get(value, i))] *)
Definition add_element (x : A) (i : Z) : prog V (A * bool) :=
  v <- rdv a i ;; lift (a_add acc x v).

(** unary_aggregate_operation.h:112-136 *)
Definition agg_0d : prog V partial :=
  nd <- is_no_data ip 0 ;;
  if nd : bool then Ret (false, true, a_init acc)
  else r <- add_element (a_init acc) 0 ;; Ret (true, snd r, fst r).

(** Lines 173-185: the loop over the remaining [n] elements. *)
Fixpoint agg_1d_rest (n : nat) (i : Z) (x : A) : prog V (A * bool) :=
  match n with
  | O => Ret (x, true)
  | S n' =>
      nd <- is_no_data ip i ;;
      if nd : bool then agg_1d_rest n' (i + 1) x
      else r <- add_element x i ;;
           if snd r : bool then agg_1d_rest n' (i + 1) (fst r) else Ret r
  end.

(** Lines 163-192.  When the inner loop has ended the outer loop ends too. *)
Fixpoint agg_1d_first (n : nat) (i : Z) (x : A) : prog V partial :=
  match n with
  | O => Ret (false, true, x)
  | S n' =>
      nd <- is_no_data ip i ;;
      if nd : bool then agg_1d_first n' (i + 1) x
      else r <- add_element x i ;;
           if snd r : bool
           then r' <- agg_1d_rest n' (i + 1) (fst r) ;; Ret (true, snd r', fst r')
           else Ret (true, false, fst r)
  end.

(** Lines 139-197. *)
Definition agg_1d (r : range) : prog V partial :=
  agg_1d_first (Z.to_nat (rend r - rbegin r)) (rbegin r) (a_init acc).

(** Lines 236-257: search the [n] remaining columns of a row for a first value. *)
Fixpoint agg_2d_first_row (n : nat) (j index_ : Z) (x : A) : prog V (option (Z * (A * bool))) :=
  match n with
  | O => Ret None
  | S n' =>
      nd <- is_no_data ip index_ ;;
      if nd : bool then agg_2d_first_row n' (j + 1) (index_ + 1) x
      else r <- add_element x index_ ;; Ret (Some (j, r))
  end.

(** Lines 231-262: search the [n] remaining rows. *)
Fixpoint agg_2d_first (ncols begin2 end2 : Z) (n : nat) (i : Z) (x : A)
  : prog V (option (Z * Z * (A * bool))) :=
  match n with
  | O => Ret None
  | S n' =>
      f <- agg_2d_first_row (Z.to_nat (end2 - begin2)) begin2 (i * ncols + begin2) x ;;
      match f with
      | Some (j, r) => Ret (Some (i, j, r))
      | None => agg_2d_first ncols begin2 end2 n' (i + 1) x
      end
  end.

(** Lines 271-286: the [n] remaining columns of a row; also returns whether the loop was left
    by [break]. *)
Fixpoint agg_2d_rest_row (n : nat) (index_ : Z) (xo : A * bool) : prog V ((A * bool) * bool) :=
  match n with
  | O => Ret (xo, false)
  | S n' =>
      nd <- is_no_data ip index_ ;;
      if nd : bool then agg_2d_rest_row n' (index_ + 1) xo
      else r <- add_element (fst xo) index_ ;;
           if snd r : bool then agg_2d_rest_row n' (index_ + 1) r else Ret (r, true)
  end.

(** Lines 267-297: the [n] remaining rows, the first one from column [j] on. *)
Fixpoint agg_2d_rest (ncols begin2 end2 : Z) (n : nat) (i j : Z) (xo : A * bool)
  : prog V (A * bool) :=
  match n with
  | O => Ret xo
  | S n' =>
      s <- agg_2d_rest_row (Z.to_nat (end2 - j)) (i * ncols + j) xo ;;
      if snd s : bool then Ret (fst s)
      else agg_2d_rest ncols begin2 end2 n' (i + 1) begin2 (fst s)
  end.

(** Lines 200-303.  Unlike in 1D, whether the first value is within range is not tested
    before going on. *)
Definition agg_2d (ncols : Z) (blk : block2) : prog V partial :=
  let '(begin1, end1) := (rbegin (fst blk), rend (fst blk)) in
  let '(begin2, end2) := (rbegin (snd blk), rend (snd blk)) in
  if (begin1 <? end1) && (begin2 <? end2) then
    f <- agg_2d_first ncols begin2 end2 (Z.to_nat (end1 - begin1)) begin1 (a_init acc) ;;
    match f with
    | None => Ret (false, true, a_init acc)
    | Some (i, j, r) =>
        let '(i', j') := if j <? end2 - 1 then (i, j + 1) else (i + 1, begin2) in
        r' <- agg_2d_rest ncols begin2 end2 (Z.to_nat (end1 - i')) i' j' r ;;
        Ret (true, snd r', fst r')
    end
  else Ret (false, true, a_init acc).
End Blocks.

(** Lines 361-366, 410-415, 503-509, 620-625, 715-721. *)
Definition agg_finish (op : outpol V) (rb : buf) (x : partial) : prog V unit :=
  let '(initialized, within, y) := x in
  if initialized && within then r <- lift (a_result acc y) ;; wrv rb 0 r
  else mark_as_no_data op 0.

(** Sequential execution: lines 344-367, 392-416, 601-626. *)
Definition aggregate_0d (ip : inpol V) (op : outpol V) (a rb : buf) : prog V unit :=
  x <- agg_0d ip a ;; agg_finish op rb x.
Definition aggregate_1d (ip : inpol V) (op : outpol V) (a rb : buf) (size : Z) : prog V unit :=
  x <- agg_1d ip a (whole1 size) ;; agg_finish op rb x.
Definition aggregate_2d (ip : inpol V) (op : outpol V) (a rb : buf) (rows cols : Z)
  : prog V unit :=
  x <- agg_2d ip a cols (whole2 rows cols) ;; agg_finish op rb x.

(** Parallel execution: lines 452-473 and 662-685: one task per block ... *)
Definition agg_tasks_1d (nr_threads size : Z) (ip : inpol V) (a : buf)
  : option (list (prog V partial)) :=
  option_map (map (agg_1d ip a)) (index_ranges_1d nr_threads size).
Definition agg_tasks_2d (nr_threads rows cols : Z) (ip : inpol V) (a : buf)
  : option (list (prog V partial)) :=
  option_map (map (agg_2d ip a cols)) (index_ranges_2d nr_threads rows cols).

(** ... lines 479-501 and 691-713: the results of the tasks are combined in order ... *)
Fixpoint agg_combine (st : partial) (results : list partial) : option partial :=
  match results with
  | [] => Some st
  | (initialized, within, y) :: results' =>
      let '(st_initialized, st_within, x) := st in
      if initialized : bool then
        if within : bool then
          match a_merge acc x y with
          | None => None
          | Some (x', ok) =>
              if ok : bool then agg_combine (true, true, x') results'
              else Some (true, false, x')
          end
        else Some (st_initialized, false, x)
      else agg_combine st results'
  end.

(** ... lines 475-477, 503-509, 687-689, 715-721: starting from nothing. *)
Definition agg_join (op : outpol V) (rb : buf) (results : list partial) : prog V unit :=
  x <- lift (agg_combine (false, false, a_init acc) results) ;; agg_finish op rb x.

End Unary.
