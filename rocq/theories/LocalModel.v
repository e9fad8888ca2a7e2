(** * Local operations

    Models [algorithm/core/{nullary,unary,binary,n_ary}_local_operation.h] and
    [algorithm/core/unary_disaggregate_operation.h].  [f] is the algorithm, [dom] the
    out-of-domain policy, [rng] the out-of-range policy.

    [const_reference<Value> v(get(value, i))] binds a reference, so the range policy,
    which is called after the result has been written, reads the argument again; this is
    visible when the result and the argument share storage.

    Simplifications: the values passed to the domain policy and to the algorithm are read
    once; [get] on a 0D argument is element 0 of its buffer. *)

From Coq Require Import ZArith List Bool.
From Verif Require Import LangModel ConcModel IndexModel LoopModel PolicyModel.
Import ListNotations.
Open Scope Z_scope.
Open Scope prog_scope.

Section Local.
Context {V : Type}.

(** ** Unary *)
Section Unary.
Variables (f : V -> V) (dom : V -> bool) (rng : V -> V -> bool).

(** unary_local_operation.h:40-60, 87-107, 142-162; unary_disaggregate_operation.h:42-62,
    95-116 and the corresponding 2D lines.  The argument is element [ia] of [a], the result
    element [i] of [rb]. *)
Definition unary_element (op : outpol V) (a : buf) (ia : Z) (rb : buf) (i : Z)
  : prog V unit :=
  v <- rdv a ia ;;
  if negb (dom v) then mark_as_no_data op i
  else
    wrv rb i (f v) ;;;
    v' <- rdv a ia ;;
    r <- rdv rb i ;;
    if negb (rng v' r) then mark_as_no_data op i else skip.

(** The test for no-data and the element itself. *)
Definition unary_cell (ip : inpol V) (op : outpol V) (a rb : buf) (i : Z) : prog V unit :=
  nd <- is_no_data ip i ;;
  if (nd : bool) then mark_as_no_data op i else unary_element op a i rb i.

(** unary_local_operation.h:29-62 *)
Definition unary_0d (ip : inpol V) (op : outpol V) (a rb : buf) : prog V unit :=
  unary_cell ip op a rb 0.

(** unary_local_operation.h:73-110 *)
Definition unary_1d ip op a rb (r : range) : prog V unit :=
  loop1 r (unary_cell ip op a rb).

(** unary_local_operation.h:121-168 *)
Definition unary_2d ip op a rb (ncols : Z) (blk : block2) : prog V unit :=
  loop2 ncols blk (unary_cell ip op a rb).

(** unary_disaggregate_operation.h:75-119 *)
Definition disaggregate_1d (ip : inpol V) op a rb (r : range) : prog V unit :=
  nd <- is_no_data ip 0 ;;
  if (nd : bool) then loop1 r (mark_as_no_data op)
  else loop1 r (unary_element op a 0 rb).

(** unary_disaggregate_operation.h:130-193 *)
Definition disaggregate_2d (ip : inpol V) op a rb (ncols : Z) (blk : block2) : prog V unit :=
  nd <- is_no_data ip 0 ;;
  if (nd : bool) then loop2 ncols blk (mark_as_no_data op)
  else loop2 ncols blk (unary_element op a 0 rb).
End Unary.

(** ** Nullary: the algorithm transforms the result element in place. *)
Section Nullary.
Variable g : V -> V.

(** nullary_local_operation.h:33-49, 67-84, 110-127 *)
Definition nullary_cell (ip : inpol V) (op : outpol V) (rb : buf) (i : Z) : prog V unit :=
  nd <- is_no_data ip i ;;
  if (nd : bool) then mark_as_no_data op i
  else r <- rdv rb i ;; wrv rb i (g r).

(** nullary_local_operation.h:27-50, 58-86, 94-132 *)
Definition nullary_0d ip op rb : prog V unit := nullary_cell ip op rb 0.
Definition nullary_1d ip op rb (r : range) : prog V unit := loop1 r (nullary_cell ip op rb).
Definition nullary_2d ip op rb ncols (blk : block2) : prog V unit :=
  loop2 ncols blk (nullary_cell ip op rb).
End Nullary.

(** ** Binary *)
Section Binary.
Variables (f : V -> V -> V) (dom : V -> V -> bool) (rng : V -> V -> V -> bool).

(** How the second argument is bound: by reference, or -- when the reference type is that
    of the first argument and the value types differ -- as a converted temporary
    (binary_local_operation.h:172 and 225: [const_reference<Value1> v2(get(value2, i))]). *)
Definition binding := option (V -> V).
Definition bound (bi : binding) (v : V) : V :=
  match bi with None => v | Some c => c v end.
Definition read_again (bi : binding) (b : buf) (i : Z) (v : V) : prog V V :=
  match bi with None => rdv b i | Some _ => Ret v end.

(** binary_local_operation.h:46-67, 108-128, 172-192, 224-245, 304-324, 387-407, 449-470 *)
Definition binary_element (bi : binding) (op : outpol V) (a1 : buf) (i1 : Z)
    (a2 : buf) (i2 : Z) (rb : buf) (i : Z) : prog V unit :=
  v1 <- rdv a1 i1 ;;
  w2 <- rdv a2 i2 ;;
  let v2 := bound bi w2 in
  if negb (dom v1 v2) then mark_as_no_data op i
  else
    wrv rb i (f v1 v2) ;;;
    v1' <- rdv a1 i1 ;;
    v2' <- read_again bi a2 i2 v2 ;;
    r <- rdv rb i ;;
    if negb (rng v1' v2' r) then mark_as_no_data op i else skip.

(** [if(is_no_data || is_no_data) mark else element]; binary_local_operation.h:39-46,
    219-224, 444-449. *)
Definition binary_cell (bi : binding) (ip1 ip2 : inpol V) (op : outpol V) (a1 a2 rb : buf)
    (i : Z) : prog V unit :=
  nd1 <- is_no_data ip1 i ;;
  if (nd1 : bool) then mark_as_no_data op i
  else
    nd2 <- is_no_data ip2 i ;;
    if (nd2 : bool) then mark_as_no_data op i
    else binary_element bi op a1 i a2 i rb i.

(** One array argument was tested; the other is a scalar that is known to be valid. *)
Definition binary_cell_a0 (bi : binding) (ip : inpol V) op (a1 a2 rb : buf) (i : Z) :=
  nd <- is_no_data ip i ;;
  if (nd : bool) then mark_as_no_data op i else binary_element bi op a1 i a2 0 rb i.
Definition binary_cell_0a (bi : binding) (ip : inpol V) op (a1 a2 rb : buf) (i : Z) :=
  nd <- is_no_data ip i ;;
  if (nd : bool) then mark_as_no_data op i else binary_element bi op a1 0 a2 i rb i.

(** binary_local_operation.h:31-69 *)
Definition binary_0d_0d ip1 ip2 op a1 a2 rb : prog V unit :=
  binary_cell None ip1 ip2 op a1 a2 rb 0.

(** binary_local_operation.h:81-132 *)
Definition binary_1d_0d ip1 ip2 op a1 a2 rb (r : range) : prog V unit :=
  nd <- is_no_data ip2 0 ;;
  if (nd : bool) then loop1 r (mark_as_no_data op)
  else loop1 r (binary_cell_a0 None ip1 op a1 a2 rb).

(** binary_local_operation.h:144-196; [bi] is the conversion of line 172 *)
Definition binary_0d_1d bi ip1 ip2 op a1 a2 rb (r : range) : prog V unit :=
  nd <- is_no_data ip1 0 ;;
  if (nd : bool) then loop1 r (mark_as_no_data op)
  else loop1 r (binary_cell_0a bi ip2 op a1 a2 rb).

(** binary_local_operation.h:208-248; [bi] is the conversion of line 225 *)
Definition binary_1d_1d bi ip1 ip2 op a1 a2 rb (r : range) : prog V unit :=
  loop1 r (binary_cell bi ip1 ip2 op a1 a2 rb).

(** binary_local_operation.h:260-331 *)
Definition binary_2d_0d ip1 ip2 op a1 a2 rb (ncols : Z) (blk : block2) : prog V unit :=
  nd <- is_no_data ip2 0 ;;
  if (nd : bool) then loop2 ncols blk (mark_as_no_data op)
  else loop2 ncols blk (binary_cell_a0 None ip1 op a1 a2 rb).

(** binary_local_operation.h:343-414 *)
Definition binary_0d_2d ip1 ip2 op a1 a2 rb (ncols : Z) (blk : block2) : prog V unit :=
  nd <- is_no_data ip1 0 ;;
  if (nd : bool) then loop2 ncols blk (mark_as_no_data op)
  else loop2 ncols blk (binary_cell_0a None ip2 op a1 a2 rb).

(** binary_local_operation.h:426-476 *)
Definition binary_2d_2d ip1 ip2 op a1 a2 rb (ncols : Z) (blk : block2) : prog V unit :=
  loop2 ncols blk (binary_cell None ip1 ip2 op a1 a2 rb).

(** ** N-ary, on arrays of one dimension *)

(** n_ary_local_operation.h:56-67 and 99-140: the first two arguments go to the result,
    then the result and the next argument go to the result.  The tuple of input no-data
    policies is passed on unchanged, so every step consults the policies of the first two
    arguments.  [size] elements, sequential execution. *)
Fixpoint n_ary_1d (ip1 ip2 : inpol V) (op : outpol V) (rb : buf) (size : Z)
    (a1 a2 : buf) (rest : list buf) : prog V unit :=
  binary_1d_1d None ip1 ip2 op a1 a2 rb (whole1 size) ;;;
  match rest with
  | [] => skip
  | a3 :: rest' => n_ary_1d ip1 ip2 op rb size rb a3 rest'
  end.
End Binary.

End Local.

(** ** fill and defined *)
Section Fill.
Context {V : Type}.

(** algorithm/core/detail/fill.h:21-59: the algorithm is the identity, errors are
    discarded.  [value] is element 0 of buffer [a]. *)
Definition fill_1d (ip : inpol V) (op : outpol V) (a rb : buf) (r : range) : prog V unit :=
  disaggregate_1d (fun v => v) (fun _ => true) (fun _ _ => true) ip op a rb r.
Definition fill_2d (ip : inpol V) (op : outpol V) (a rb : buf) (ncols : Z) (blk : block2)
  : prog V unit :=
  disaggregate_2d (fun v => v) (fun _ => true) (fun _ _ => true) ip op a rb ncols blk.

(** algorithm/algebra/boole/detail/defined.h:35-57.  The constant 0 that is passed to
    [fill] is element 0 of buffer [zero]; sequential execution. *)
Definition defined_1d (one : V) (ip : inpol V) (zero rb : buf) (size : Z) : prog V unit :=
  fill_1d SkipNoData DontMarkNoData zero rb (whole1 size) ;;;
  nullary_1d (fun _ => one) ip DontMarkNoData rb (whole1 size).
Definition defined_2d (one : V) (ip : inpol V) (zero rb : buf) (rows cols : Z)
  : prog V unit :=
  fill_2d SkipNoData DontMarkNoData zero rb cols (whole2 rows cols) ;;;
  nullary_2d (fun _ => one) ip DontMarkNoData rb cols (whole2 rows cols).
End Fill.
