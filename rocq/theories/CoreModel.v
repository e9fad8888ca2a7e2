(** * Selecting algorithms: cover, if, clamp, and merging of no-data

    Models [algorithm/core/detail/{cover,if,clamp,merge_no_data,unite_no_data,
    intersect_no_data}.h].  0D arguments are buffers with element 0 only, as in
    [PolicyModel.v].  References to elements ([const_reference<TrueValue> tv(get(true_value))],
    e.g. if.h:143) are read where they are used.

    Conditions are values that C++ converts to [bool]: [truth]. *)

From Coq Require Import ZArith List Bool.
From Verif Require Import LangModel ConcModel IndexModel LoopModel PolicyModel.
Import ListNotations.
Open Scope Z_scope.
Open Scope prog_scope.

Section Tests.
Context {V : Type}.

(** [if(t) p else q], and the operators [!], [&&] and [||], which evaluate their right hand
    side only if it matters. *)
Definition ifp {A} (t : prog V bool) (p q : prog V A) : prog V A :=
  c <- t ;; if (c : bool) then p else q.
Definition notp (t : prog V bool) : prog V bool := c <- t ;; Ret (negb c).
Definition andp (t u : prog V bool) : prog V bool := ifp t u (Ret false).
Definition orp (t u : prog V bool) : prog V bool := ifp t (Ret true) u.

(** [assert(t)] *)
Definition assertp (t : prog V bool) (p : prog V unit) : prog V unit := ifp t p UB.

(** [get(result, i) = get(value, ia)] *)
Definition assign (a : buf) (ia : Z) (rb : buf) (i : Z) : prog V unit :=
  v <- rdv a ia ;; wrv rb i v.

(** The value at [i], unless that is no-data; e.g. if.h:550-555, 573-578. *)
Definition copy_cell (ip : inpol V) (op : outpol V) (a rb : buf) (i : Z) : prog V unit :=
  ifp (is_no_data ip i) (mark_as_no_data op i) (assign a i rb i).
End Tests.

(** ** cover *)
Section Cover.
Context {V : Type}.
Variables (ip1 ip2 : inpol V) (op : outpol V) (a1 a2 rb : buf).

(** cover.h:35-43 and, for element [i] of the first argument and element [i2] of the second,
    cover.h:70-78 and 109-117 *)
Definition cover_cell (i i2 : Z) : prog V unit :=
  ifp (notp (is_no_data ip1 i)) (assign a1 i rb i)
    (ifp (notp (is_no_data ip2 i2)) (assign a2 i2 rb i)
       (mark_as_no_data op i)).

(** cover.h:28-44, 53-83, 92-122 *)
Definition cover_0d_0d : prog V unit := cover_cell 0 0.
Definition cover_2d_0d (ncols : Z) (blk : block2) : prog V unit :=
  loop2 ncols blk (fun i => cover_cell i 0).
Definition cover_2d_2d (ncols : Z) (blk : block2) : prog V unit :=
  loop2 ncols blk (fun i => cover_cell i i).
End Cover.

(** ** if_then and if_then_else *)
Section If.
Context {V : Type}.
Variable truth : V -> bool.
Variables (ip0 ip1 ip2 : inpol V) (op : outpol V) (c t f rb : buf).

(** [get(condition, i)] used as a condition *)
Definition cond (i : Z) : prog V bool := x <- rdv c i ;; Ret (truth x).

Local Notation nd0 := (is_no_data ip0).
Local Notation nd1 := (is_no_data ip1).
Local Notation nd2 := (is_no_data ip2).
Local Notation mark := (mark_as_no_data op).

(** if.h:35-41 *)
Definition if_then_0d_0d : prog V unit :=
  ifp (andp (notp (nd0 0)) (andp (cond 0) (notp (nd1 0))))
    (assign t 0 rb 0)
    (mark 0).

(** if.h:61-104 *)
Definition if_then_0d_2d (ncols : Z) (blk : block2) : prog V unit :=
  ifp (andp (notp (nd0 0)) (cond 0))
    (loop2 ncols blk (fun i =>
       ifp (notp (nd1 i)) (assign t i rb i) (mark i)))
    (loop2 ncols blk mark).

(** if.h:124-164 *)
Definition if_then_2d_0d (ncols : Z) (blk : block2) : prog V unit :=
  ifp (nd1 0)
    (loop2 ncols blk mark)
    (loop2 ncols blk (fun i =>
       ifp (andp (notp (nd0 i)) (cond i)) (assign t 0 rb i) (mark i))).

(** if.h:184-202 *)
Definition if_then_2d_2d (ncols : Z) (blk : block2) : prog V unit :=
  loop2 ncols blk (fun i =>
    ifp (andp (notp (nd0 i)) (andp (cond i) (notp (nd1 i))))
      (assign t i rb i)
      (mark i)).

(** if.h:221-239, also used at all elements when nothing is a scalar (if.h:473-493 and
    845-865) *)
Definition if_then_else_cell (i : Z) : prog V unit :=
  ifp (nd0 i) (mark i)
    (ifp (cond i)
       (ifp (nd1 i) (mark i) (assign t i rb i))
       (ifp (nd2 i) (mark i) (assign f i rb i))).

Definition if_then_else_0d_0d_0d : prog V unit := if_then_else_cell 0.

(** The loops of if.h:259-325 and 1061-1164, for two scalar branches: both no-data, true value
    no-data, false value no-data, both valid. *)
Definition scalar_branches_neither (i : Z) : prog V unit := mark i.
Definition scalar_branches_false (i : Z) : prog V unit :=
  ifp (orp (nd0 i) (cond i)) (mark i) (assign f 0 rb i).
Definition scalar_branches_true (i : Z) : prog V unit :=
  ifp (orp (nd0 i) (notp (cond i))) (mark i) (assign t 0 rb i).
Definition scalar_branches_both (i : Z) : prog V unit :=
  ifp (nd0 i) (mark i) (ifp (cond i) (assign t 0 rb i) (assign f 0 rb i)).

(** if.h:259-325 *)
Definition if_then_else_1d_0d_0d (r : range) : prog V unit :=
  ifp (nd1 0)
    (ifp (nd2 0) (loop1 r scalar_branches_neither) (loop1 r scalar_branches_false))
    (ifp (nd2 0) (loop1 r scalar_branches_true) (loop1 r scalar_branches_both)).

(** if.h:345-388 *)
Definition if_then_else_1d_1d_0d (r : range) : prog V unit :=
  ifp (nd2 0)
    (loop1 r (fun i =>
       ifp (orp (nd0 i) (orp (notp (cond i)) (nd1 i))) (mark i) (assign t i rb i)))
    (loop1 r (fun i =>
       ifp (nd0 i) (mark i)
         (ifp (cond i)
            (ifp (nd1 i) (mark i) (assign t i rb i))
            (assign f 0 rb i)))).

(** if.h:408-451 *)
Definition if_then_else_1d_0d_1d (r : range) : prog V unit :=
  ifp (nd1 0)
    (loop1 r (fun i =>
       ifp (orp (nd0 i) (orp (cond i) (nd2 i))) (mark i) (assign f i rb i)))
    (loop1 r (fun i =>
       ifp (nd0 i) (mark i)
         (ifp (cond i)
            (assign t 0 rb i)
            (ifp (nd2 i) (mark i) (assign f i rb i))))).

(** if.h:471-495 *)
Definition if_then_else_1d_1d_1d (r : range) : prog V unit := loop1 r if_then_else_cell.

(** if.h:517-583 *)
Definition if_then_else_0d_2d_2d (ncols : Z) (blk : block2) : prog V unit :=
  ifp (nd0 0) (loop2 ncols blk mark)
    (ifp (cond 0)
       (loop2 ncols blk (copy_cell ip1 op t rb))
       (loop2 ncols blk (copy_cell ip2 op f rb))).

(** if.h:605-699 *)
Definition if_then_else_0d_0d_2d (ncols : Z) (blk : block2) : prog V unit :=
  ifp (nd0 0) (loop2 ncols blk mark)
    (ifp (cond 0)
       (ifp (nd1 0) (loop2 ncols blk mark) (loop2 ncols blk (assign t 0 rb)))
       (loop2 ncols blk (copy_cell ip2 op f rb))).

(** if.h:721-816 *)
Definition if_then_else_0d_2d_0d (ncols : Z) (blk : block2) : prog V unit :=
  ifp (nd0 0) (loop2 ncols blk mark)
    (ifp (cond 0)
       (loop2 ncols blk (copy_cell ip1 op t rb))
       (ifp (nd2 0) (loop2 ncols blk mark) (loop2 ncols blk (assign f 0 rb)))).

(** if.h:838-869 *)
Definition if_then_else_2d_2d_2d (ncols : Z) (blk : block2) : prog V unit :=
  loop2 ncols blk if_then_else_cell.

(** if.h:891-952 *)
Definition if_then_else_2d_2d_0d (ncols : Z) (blk : block2) : prog V unit :=
  ifp (nd2 0)
    (loop2 ncols blk (fun i =>
       ifp (orp (nd0 i) (notp (cond i))) (mark i)
         (ifp (nd1 i) (mark i) (assign t i rb i))))
    (loop2 ncols blk (fun i =>
       ifp (nd0 i) (mark i)
         (ifp (cond i)
            (ifp (nd1 i) (mark i) (assign t i rb i))
            (assign f 0 rb i)))).

(** if.h:974-1039 *)
Definition if_then_else_2d_0d_2d (ncols : Z) (blk : block2) : prog V unit :=
  ifp (nd1 0)
    (loop2 ncols blk (fun i =>
       ifp (orp (nd0 i) (cond i)) (mark i)
         (ifp (nd2 i) (mark i) (assign f i rb i))))
    (loop2 ncols blk (fun i =>
       ifp (nd0 i) (mark i)
         (ifp (cond i)
            (assign t 0 rb i)
            (ifp (nd2 i) (mark i) (assign f i rb i))))).

(** if.h:1061-1164 *)
Definition if_then_else_2d_0d_0d (ncols : Z) (blk : block2) : prog V unit :=
  ifp (nd1 0)
    (ifp (nd2 0) (loop2 ncols blk scalar_branches_neither)
                 (loop2 ncols blk scalar_branches_false))
    (ifp (nd2 0) (loop2 ncols blk scalar_branches_true)
                 (loop2 ncols blk scalar_branches_both)).
End If.

(** ** clamp *)
Section Clamp.
Context {V : Type}.
Variable lt : V -> V -> bool.
Variables (ip0 ip1 ip2 : inpol V) (op : outpol V) (a lo hi rb : buf).

(** [get(result, i) = boost::algorithm::clamp(get(value, i), get(lower, il), get(upper, ih))],
    which asserts that the bounds are ordered. *)
Definition clamp_value (i il ih : Z) : prog V unit :=
  v <- rdv a i ;; l <- rdv lo il ;; h <- rdv hi ih ;;
  if lt h l then UB
  else wrv rb i (if lt v l then l else if lt h v then h else v).

(** clamp.h:37-46 *)
Definition clamp_0d_0d_0d : prog V unit :=
  assertp (notp (is_no_data ip1 0)) (
  assertp (notp (is_no_data ip2 0)) (
    ifp (is_no_data ip0 0) (mark_as_no_data op 0) (clamp_value 0 0 0))).

(** clamp.h:67-77, 99-109, 131-141, 171-181, 214-224, 257-267; [il] and [ih] are the indices
    into the bounds. *)
Definition clamp_cell (i il ih : Z) : prog V unit :=
  ifp (is_no_data ip0 i) (mark_as_no_data op i)
    (assertp (notp (is_no_data ip1 il)) (
     assertp (notp (is_no_data ip2 ih)) (clamp_value i il ih))).

(** clamp.h:57-79, 89-111, 121-143.  The parallel versions for the last two bind the function
    for three arrays (clamp.h:510, 608), which does not compile for a scalar bound; so they
    are modelled with the sequential execution policy only. *)
Definition clamp_1d_1d_1d (r : range) : prog V unit := loop1 r (fun i => clamp_cell i i i).
Definition clamp_1d_1d_0d (r : range) : prog V unit := loop1 r (fun i => clamp_cell i i 0).
Definition clamp_1d_0d_1d (r : range) : prog V unit := loop1 r (fun i => clamp_cell i 0 i).

(** clamp.h:153-186, 196-229, 239-272 *)
Definition clamp_2d_2d_2d (ncols : Z) (blk : block2) : prog V unit :=
  loop2 ncols blk (fun i => clamp_cell i i i).
Definition clamp_2d_2d_0d (ncols : Z) (blk : block2) : prog V unit :=
  loop2 ncols blk (fun i => clamp_cell i i 0).
Definition clamp_2d_0d_2d (ncols : Z) (blk : block2) : prog V unit :=
  loop2 ncols blk (fun i => clamp_cell i 0 i).
End Clamp.

(** ** merge_no_data, unite_no_data, intersect_no_data *)
Section Merge.
Context {V : Type}.
Variables (ip1 ip2 : inpol V) (op : outpol V).

(** [if(t) mark_as_no_data] *)
Definition mark_if (t : prog V bool) (i : Z) : prog V unit :=
  ifp t (mark_as_no_data op i) skip.

(** merge_no_data.h:32-34 and 59-61; unite_no_data.h:34-37 and 64-67;
    intersect_no_data.h:35-38 and 65-68 *)
Definition merge_cell (i : Z) : prog V unit := mark_if (is_no_data ip1 i) i.
Definition unite_cell (i : Z) : prog V unit :=
  mark_if (orp (is_no_data ip1 i) (is_no_data ip2 i)) i.
Definition intersect_cell (i : Z) : prog V unit :=
  mark_if (andp (is_no_data ip1 i) (is_no_data ip2 i)) i.

(** merge_no_data.h:26-66; unite_no_data.h:27-72; intersect_no_data.h:28-73 *)
Definition merge_no_data_0d : prog V unit := merge_cell 0.
Definition merge_no_data_2d (ncols : Z) (blk : block2) : prog V unit :=
  loop2 ncols blk merge_cell.
Definition unite_no_data_0d_0d : prog V unit := unite_cell 0.
Definition unite_no_data_2d_2d (ncols : Z) (blk : block2) : prog V unit :=
  loop2 ncols blk unite_cell.
Definition intersect_no_data_0d_0d : prog V unit := intersect_cell 0.
Definition intersect_no_data_2d_2d (ncols : Z) (blk : block2) : prog V unit :=
  loop2 ncols blk intersect_cell.
End Merge.
