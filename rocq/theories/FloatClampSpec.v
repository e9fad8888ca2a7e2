(** * What clamping floating point numbers should give *)
From Coq Require Import ZArith SpecFloat.
From Verif Require Import LangModel PolicyModel LocalSpec IntsModel FloatModel IeeeSpec FloatSpec.
Open Scope Z_scope.

(** The upper bound is not less than the lower one, or one of them is NaN. *)
Definition bounds_order (f : fmt) (l h : spec_float) : Prop :=
  is_nan l = true \/ is_nan h = true \/ ~ below f h l.

(** [r] is [v] moved into the bounds [l] and [h]; a bound that is NaN is none, and NaN is not moved. *)
Definition moved (f : fmt) (v l h r : spec_float) : Prop :=
  (is_nan v = true -> r = v) /\
  (is_nan v = false ->
     (is_nan l = false -> below f v l -> r = l) /\
     (is_nan h = false -> below f h v -> r = h) /\
     (is_nan l = true \/ ~ below f v l -> is_nan h = true \/ ~ below f h v -> r = v)).

(** Element [i], with its bounds at [il] and [ih]: it exists, and unless it is no-data the bounds do,
    are not no-data and are ordered; all are floating point numbers of the format. *)
Definition element_bounded (f : fmt) (ip0 ip1 ip2 : inpol spec_float) (op : outpol spec_float)
    (a lo hi rb : buf) (m : mem spec_float) (i il ih : Z) : Prop :=
  arg_exists ip0 a m i /\ result_exists op rb m i /\
  (forall v, arg_at ip0 a m i = Some v -> is_float (fprec f) (femax f) v) /\
  (nd_at ip0 m i = false ->
     readable ip1 m il /\ readable ip2 m ih /\
     exists l h, arg_at ip1 lo m il = Some l /\ arg_at ip2 hi m ih = Some h /\
       is_float (fprec f) (femax f) l /\ is_float (fprec f) (femax f) h /\ bounds_order f l h).

(** It is no-data, or moved into its bounds. *)
Definition element_moved (f : fmt) (ip0 : inpol spec_float) (a lo hi : buf) (m : mem spec_float)
    (o : outcome spec_float) (i il ih : Z) : Prop :=
  match arg_at ip0 a m i with
  | None => o = NoData
  | Some v => exists l h r, mval m lo il = Some l /\ mval m hi ih = Some h /\ o = Value r /\ moved f v l h r
  end.
