(** * What selecting algorithms leave at an element *)
From Coq Require Import ZArith List Bool.
From Verif Require Import LangModel ConcModel IndexModel IndexSpec LoopModel LoopSpec
  PolicyModel LocalSpec.
Import ListNotations.
Open Scope Z_scope.

Section CoreSpec.
Context {V : Type}.

(** The value, or no-data. *)
Definition value_or_no_data (a : option V) : outcome V :=
  match a with Some x => Value x | None => NoData end.

(** The first argument that is valid. *)
Definition cover_outcome (a1 a2 : option V) : outcome V :=
  value_or_no_data (match a1 with Some x => Some x | None => a2 end).

(** The selected branch, if the condition is valid. *)
Definition if_then_outcome (truth : V -> bool) (c t : option V) : outcome V :=
  match c with
  | Some x => if truth x then value_or_no_data t else NoData
  | None => NoData
  end.

Definition if_then_else_outcome (truth : V -> bool) (c t f : option V) : outcome V :=
  match c with
  | Some x => value_or_no_data (if truth x then t else f)
  | None => NoData
  end.

(** [r] is [v] moved into the bounds: it is not outside of them, it is [v] if that is not
    outside either, and otherwise the bound that [v] exceeds. *)
Definition clamped (lt : V -> V -> bool) (v l h r : V) : Prop :=
  lt r l = false /\ lt h r = false /\
  (lt v l = false -> lt h v = false -> r = v) /\
  (lt v l = true -> r = l) /\
  (lt v l = false -> lt h v = true -> r = h).

(** Marked, or else as it was. *)
Definition marked_if (nd : bool) (old : option V) : outcome V :=
  if nd then NoData else value_or_no_data old.

(** Operation [opf] on a 1D array of [size] elements: executed sequentially, it ends without
    undefined behaviour in a memory that holds outcome [o i] at every element [i] of result
    [rb], and nothing else is changed; executed in parallel by [n] threads, whatever the
    schedule, it yields that same memory, without races. *)
Definition computes_1d (opf : range -> prog V unit) (op : outpol V) (rb : buf) (size : Z)
    (o : Z -> outcome V) (m : mem V) : Prop :=
  exists m1, run (opf (whole1 size)) m = Some (tt, m1) /\
    (forall i, 0 <= i < size -> holds op rb m m1 i (o i)) /\
    changes_only op rb (zrange 0 size) m m1 /\
    (size < 2 ^ 64 -> forall n, 1 <= n ->
       exists tasks, par1 n size opf = Some tasks /\ always_yields tasks m m1).

(** The same for rasters; element [i] is cell [(i / cols, i mod cols)]. *)
Definition computes_2d (opf : block2 -> prog V unit) (op : outpol V) (rb : buf) (rows cols : Z)
    (o : Z -> outcome V) (m : mem V) : Prop :=
  exists m1, run (opf (whole2 rows cols)) m = Some (tt, m1) /\
    (forall i, 0 <= i < rows * cols -> holds op rb m m1 i (o i)) /\
    changes_only op rb (zrange 0 (rows * cols)) m m1 /\
    (rows < 2 ^ 64 -> forall n, 1 <= n ->
       exists tasks, par2 n rows cols opf = Some tasks /\ always_yields tasks m m1).

(** A scalar argument exists, and is stored elsewhere than the result. *)
Definition scalar_apart (ip : inpol V) (a : buf) (op : outpol V) (rb : buf) (m : mem V) : Prop :=
  arg_exists ip a m 0 /\ a <> rb /\ policy_apart ip op rb.
End CoreSpec.
