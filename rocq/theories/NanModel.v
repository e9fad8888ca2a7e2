(** * Model of no-data values that are floating point numbers

    Models [algorithm/policy/detect_no_data_by_value.h] and [mark_no_data_by_value.h] for a
    collection of floating point numbers that is its own mask.

    Simplification: the function for scalars, without an index, which compares by [==] too
    (detect_no_data_by_value.h:109-115), is that for index 0. *)
From Coq Require Import ZArith SpecFloat.
From Verif Require Import LangModel PolicyModel.

(** detect_no_data_by_value.h:109-145, core/math.h:16-45: [is_equal] of floating point numbers is
    [==] *)
Definition detect_value (nd : spec_float) (b : buf) : inpol spec_float := DetectByValue b (fun v => SFeqb v nd).

(** mark_no_data_by_value.h:98-141 *)
Definition mark_value (nd : spec_float) (b : buf) : outpol spec_float := MarkByValue b nd.
