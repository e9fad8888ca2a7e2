(** * What statistics of floating point numbers should be *)
From Coq Require Import ZArith List Bool SpecFloat.
From Verif Require Import LangModel ConcModel IndexSpec LoopSpec PolicyModel LocalSpec IntsModel FloatModel
  IeeeSpec FloatSpec AccumModel AggModel AggSpec.
Import ListNotations.
Open Scope Z_scope.

(** All the values are floating point numbers of the format. *)
Definition floats (f : fmt) (vs : list spec_float) : Prop := Forall (is_float (fprec f) (femax f)) vs.

(** [r] is one of the values, it is not NaN, no value that is not NaN is less than it, and those
    that come before it and compare equal to it are the same (so of a positive and a negative zero
    it is the first). *)
Definition smallest (f : fmt) (vs : list spec_float) (r : spec_float) : Prop :=
  is_nan r = false /\
  (exists us ws, vs = us ++ r :: ws /\ forall u, List.In u us -> is_nan u = false -> u = r \/ below f r u) /\
  forall v, List.In v vs -> is_nan v = false -> ~ below f v r.
(** Likewise, none is greater. *)
Definition greatest (f : fmt) (vs : list spec_float) (r : spec_float) : Prop :=
  is_nan r = false /\
  (exists us ws, vs = us ++ r :: ws /\ forall u, List.In u us -> is_nan u = false -> u = r \/ below f u r) /\
  forall v, List.In v vs -> is_nan v = false -> ~ below f r v.

(** The largest and the smallest finite number *)
Definition is_largest (f : fmt) (r : spec_float) : Prop := is_number (fprec f) (femax f) r /\ fvalue f r = largest f.
Definition is_lowest (f : fmt) (r : spec_float) : Prop := is_number (fprec f) (femax f) r /\ fvalue f r = - largest f.

Definition plus_infinity := S754_infinity false.
Definition minus_infinity := S754_infinity true.

(** However the elements are laid out and however they are aggregated, the outcome is [o]: as
    an array or as a raster, sequentially or by any number of threads, in any schedule. *)
Definition aggregates_to {V A} (acc : accu V A) (ip : inpol V) (op : outpol V) (a rb : buf) (m : mem V) (size : Z) (o : outcome V) : Prop :=
  (size = 1 -> computes (aggregate_0d acc ip op a rb) op rb 1 (fun _ => o) m) /\
  computes (aggregate_1d acc ip op a rb size) op rb 1 (fun _ => o) m /\
  (forall rows cols, 0 <= rows < 2 ^ 64 -> 0 <= cols -> rows * cols = size ->
     computes (aggregate_2d acc ip op a rb rows cols) op rb 1 (fun _ => o) m) /\
  (forall nr_threads, 1 <= nr_threads ->
     exists tasks, agg_tasks_1d acc nr_threads size ip a = Some tasks /\ joins_to acc tasks op rb o m) /\
  (forall nr_threads rows cols, 1 <= nr_threads -> 0 <= rows < 2 ^ 64 -> 0 <= cols -> rows * cols = size ->
     exists tasks, agg_tasks_2d acc nr_threads rows cols ip a = Some tasks /\ joins_to acc tasks op rb o m).
