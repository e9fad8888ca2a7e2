(** * What is expected of algorithms that move elements *)
From Coq Require Import ZArith List Bool.
From Verif Require Import LangModel ConcModel IndexModel IndexSpec LoopModel LoopSpec
  PolicyModel IntsModel LocalSpec AggSpec CoreSpec.
Import ListNotations.
Open Scope Z_scope.

Section CopySpec.
Context {V : Type}.

(** Program [p] ends without undefined behaviour in a memory that holds, at every element [i]
    of [l], outcome [o i], and everything else is as it was.  For every number of threads,
    [par] distributes the work over tasks that yield that same memory, whatever the schedule,
    without races. *)
Definition computes_on (p : prog V unit) (par : Z -> option (list (prog V unit)))
    (op : outpol V) (rb : buf) (l : list Z) (o : Z -> outcome V) (m : mem V) : Prop :=
  exists m1, run p m = Some (tt, m1) /\
    (forall i, In i l -> holds op rb m m1 i (o i)) /\
    changes_only op rb l m m1 /\
    forall n, 1 <= n -> exists tasks, par n = Some tasks /\ always_yields tasks m m1.

(** The first elements of [rb] are [vs]. *)
Definition starts_with (rb : buf) (vs : list V) (m : mem V) : Prop :=
  forall k, (k < length vs)%nat -> mval m rb (Z.of_nat k) = nth_error vs k.

(** Nothing changes but the values of [rb] at [0 .. n-1]. *)
Definition changes_front (rb : buf) (n : Z) (m m' : mem V) : Prop :=
  (forall b i, b <> rb \/ ~ 0 <= i < n -> mval m' b i = mval m b i) /\
  (forall b i, mmsk m' b i = mmsk m b i).

(** The number of valid elements before element [i]. *)
Definition rank (ip : inpol V) (m : mem V) (i : Z) : Z :=
  Z.of_nat (length (filter (fun j => negb (nd_at ip m j)) (zrange 0 i))).

(** Whatever the schedule, the tasks do not race and do not fault and can always still
    complete; once they have all completed, [join], given what they returned, ends without
    undefined behaviour, with a result and a memory as described by [Q]. *)
Definition tasks_join {A B} (tasks : list (prog V A)) (join : list A -> prog V B) (m : mem V)
    (Q : B -> mem V -> Prop) : Prop :=
  no_race tasks m /\
  forall sched, exists ps m1, exec sched tasks m = Some (ps, m1) /\
    (forall results, ps = map Ret results ->
       exists b m2, run (join results) m1 = Some (b, m2) /\ Q b m2) /\
    exists sched' results m2, exec sched' ps m1 = Some (map Ret results, m2).

(** What element [i] of an array of [n] elements holds after shifting by [d]: the element
    [d] positions before, if there is one. *)
Definition shifted (n d : Z) (x : Z -> outcome V) (outside : outcome V) (i : Z) : outcome V :=
  if (0 <=? i - d) && (i - d <? n) then x (i - d) else outside.

(** The same for element [i] of a raster, in row-major order. *)
Definition shifted_2d (rows cols d1 d2 : Z) (x : Z -> outcome V) (outside : outcome V) (i : Z)
  : outcome V :=
  let r := i / cols - d1 in
  let c := i mod cols - d2 in
  if (0 <=? r) && (r <? rows) && (0 <=? c) && (c <? cols) then x (r * cols + c) else outside.
End CopySpec.

(** The type [T] of the offset is signed, and represents offset [d] and size [n]. *)
Definition representable (T : ity) (n d : Z) : Prop :=
  signed T = true /\ 0 <= n <= imax T /\ imin T <= d <= imax T.
