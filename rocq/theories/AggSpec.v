(** * What aggregation means *)

From Coq Require Import ZArith List Bool Permutation Sorted.
From Verif Require Import LangModel ConcModel IndexSpec LoopSpec PolicyModel LocalSpec AccumModel
  AggModel.
Import ListNotations.
Open Scope Z_scope.

Section Agg.
Context {V A : Type}.

(** The values of the elements of [l] that are not no-data, in order. *)
Definition valid_values (ip : inpol V) (a : buf) (m : mem V) (l : list Z) : list V :=
  flat_map (fun i => match arg_at ip a m i with Some v => [v] | None => [] end) l.

(** Adding the values [vs] one by one to accumulator [x] gives [y], and the result is within
    range after each of them. *)
Inductive accumulates (acc : accu V A) : A -> list V -> A -> Prop :=
| acc_none x : accumulates acc x [] x
| acc_more x v y vs z :
    a_add acc x v = Some (y, true) -> accumulates acc y vs z -> accumulates acc x (v :: vs) z.

(** While adding the values [vs] one by one to [x] the result leaves the range: all is well
    up to and including [us], and not after the next value. *)
Definition leaves_range (acc : accu V A) (x : A) (vs : list V) : Prop :=
  exists us v ws y z,
    vs = us ++ v :: ws /\ accumulates acc x us y /\ a_add acc y v = Some (z, false).

(** Whatever the schedule, the tasks do not race, do not fault, do not change the memory and
    can always still complete; and once all have completed, joining their results ends
    in a memory that holds outcome [o]. *)
Definition joins_to (acc : accu V A) (tasks : list (prog V partial)) (op : outpol V) (rb : buf)
    (o : outcome V) (m : mem V) : Prop :=
  no_race tasks m /\
  forall sched, exists ps m1, exec sched tasks m = Some (ps, m1) /\ mem_eq m1 m /\
    (forall results, ps = map Ret results ->
       computes (agg_join acc op rb results) op rb 1 (fun _ => o) m1) /\
    exists sched' results m2, exec sched' ps m1 = Some (map Ret results, m2).

(** Accumulating [xs] in one accumulator and [ys] in another, and merging them, is
    accumulating [xs] and then [ys]. *)
Definition merges (acc : accu V A) : Prop :=
  forall xs ys x y, accumulates acc (a_init acc) xs x -> accumulates acc (a_init acc) ys y ->
    exists z, a_merge acc x y = Some (z, true) /\ accumulates acc (a_init acc) (xs ++ ys) z.

(** The values [vs] were given to an accumulator that was default constructed, or constructed
    from the first of them, and [x] is the accumulator after the last one. *)
Inductive feeds (acc : accu V A) : list V -> A -> Prop :=
| fed_default vs x : accumulates acc (a_init acc) vs x -> feeds acc vs x
| fed_value v vs x y : a_from acc v = Some y -> accumulates acc y vs x -> feeds acc (v :: vs) x.

(** Where defined, merging the accumulators of [xs] and of [ys] gives the accumulator of [xs]
    and then [ys], for values that satisfy [P]. *)
Definition merge_is_concatenation (P : V -> Prop) (acc : accu V A) : Prop :=
  forall xs ys x y z b z', Forall P xs -> Forall P ys ->
    feeds acc xs x -> feeds acc ys y -> a_merge acc x y = Some (z, b) ->
    feeds acc (xs ++ ys) z' -> b = true /\ z = z'.

(** Values that satisfy [P] can always be accumulated, and accumulators of them merged. *)
Definition always_defined (P : V -> Prop) (acc : accu V A) : Prop :=
  (forall xs, Forall P xs -> exists x, accumulates acc (a_init acc) xs x) /\
  (forall xs ys x y, Forall P xs -> Forall P ys -> feeds acc xs x -> feeds acc ys y ->
     exists z, a_merge acc x y = Some (z, true)).

(** The same for one sequence: any run of consecutive values of [vs] can be accumulated within
    range, and accumulating two adjacent runs separately and merging them, which stays within
    range, is accumulating their concatenation. *)
Definition mergeable (acc : accu V A) (vs : list V) : Prop :=
  (forall us xs ws, vs = us ++ xs ++ ws -> exists x, accumulates acc (a_init acc) xs x) /\
  (forall xs ys ws x y, vs = xs ++ ys ++ ws ->
     accumulates acc (a_init acc) xs x -> accumulates acc (a_init acc) ys y ->
     exists z, a_merge acc x y = Some (z, true) /\ accumulates acc (a_init acc) (xs ++ ys) z).

End Agg.

(** ** Integer sequences *)

Definition total (l : list Z) : Z := fold_right Z.add 0 l.

(** All sums of a non-empty prefix of [l], added to [s], satisfy [P]. *)
Fixpoint prefix_sums (P : Z -> Prop) (s : Z) (l : list Z) : Prop :=
  match l with
  | [] => True
  | v :: l' => P (s + v) /\ prefix_sums P (s + v) l'
  end.

Definition is_min (l : list Z) (r : Z) : Prop := In r l /\ forall x, In x l -> r <= x.
Definition is_max (l : list Z) (r : Z) : Prop := In r l /\ forall x, In x l -> x <= r.

Definition multiplicity (l : list Z) (v : Z) : nat := count_occ Z.eq_dec l v.

(** A value that occurs at least as often as any other. *)
Definition is_mode (l : list Z) (r : Z) : Prop :=
  In r l /\ forall v, (multiplicity l v <= multiplicity l r)%nat.

(** [s] is [l] in increasing order. *)
Definition is_sorted (l s : list Z) : Prop := Permutation l s /\ StronglySorted Z.le s.
