(** * No-data policies

    Models [algorithm/policy/*.h].  0D arguments are buffers with element 0 only. *)

From Coq Require Import ZArith List Bool.
From Verif Require Import LangModel.
Open Scope Z_scope.
Open Scope prog_scope.

Section Policies.
Context {V : Type}.

(** Input no-data policies.
    [SkipNoData] (skip_no_data.h:22-125), [AllNoData] (all_no_data.h:23-106),
    [DetectByMask]: [DetectNoDataByValue] on a mask collection of booleans and
    [DetectByValue]: [DetectNoDataByValue] on the values themselves
    (detect_no_data_by_value.h:29-145), or [DetectNoData] with the type's own no-data
    value (detect_no_data.h:26-117); the comparison is a parameter because it depends on
    the value type ([is_equal] for floats). *)
Inductive inpol :=
| SkipNoData
| AllNoData
| DetectByMask (b : buf) (nd : bool)
| DetectByValue (b : buf) (is_nd : V -> bool).

(** [is_no_data(index)] *)
Definition is_no_data (ip : inpol) (i : Z) : prog V bool :=
  match ip with
  | SkipNoData => Ret false
  | AllNoData => Ret true
  | DetectByMask b nd => x <- rdm b i ;; Ret (Bool.eqb x nd)
  | DetectByValue b is_nd => v <- rdv b i ;; Ret (is_nd v)
  end.

(** Output no-data policies.  [DontMarkNoData] (dont_mark_no_data.h:19-89),
    [MarkByMask] and [MarkByValue]: [MarkNoDataByValue] on a mask or on the result
    (mark_no_data_by_value.h:27-141); [MarkNoData] (mark_no_data.h:27-120) is the latter
    with the type's own no-data value. *)
Inductive outpol :=
| DontMarkNoData
| MarkByMask (b : buf) (nd : bool)
| MarkByValue (b : buf) (nd : V).

(** [mark_as_no_data(index)] *)
Definition mark_as_no_data (op : outpol) (i : Z) : prog V unit :=
  match op with
  | DontMarkNoData => skip
  | MarkByMask b nd => wrm b i nd
  | MarkByValue b nd => wrv b i nd
  end.

End Policies.

Arguments inpol V : clear implicits.
Arguments outpol V : clear implicits.
