(** * Task language

    The array algorithms of fern are C++ function templates that read and write single
    elements of arrays ([get(value, index)]), and single flags of no-data masks, inside
    nested index loops.  This file defines the language in which the other [*Model.v]
    files transcribe those loops.  A program is a tree of single memory accesses; it can
    be run on its own ([run]) or interleaved with other programs, access by access
    ([ConcModel.v]).

    Modelled code: [feature/core/data_customization_point/masked_raster.h:44-70]
    ([index], [get]), [feature/core/array.h] (storage of values),
    [feature/core/masked_array.h] (storage of masks).

    Simplifications: buffers are identified by numbers; one value type [V] stands for all
    C++ value types (conversions are explicit functions on [V]); [size_t] index
    arithmetic is done on [Z].  An access outside a buffer -- undefined behaviour, guarded
    only by [assert] in the code -- makes the run fail. *)

From Coq Require Import ZArith List Bool Lia.
Import ListNotations.
Open Scope Z_scope.

Definition buf := nat.
Bind Scope nat_scope with buf.

(** A memory location: element [i] of the values of buffer [b], or of its mask. *)
Inductive loc :=
| LV (b : buf) (i : Z)
| LM (b : buf) (i : Z).

Section Lang.
Context {V : Type}.

(** Programs: trees of single memory accesses.  [UB] is undefined behaviour. *)
Inductive prog (A : Type) : Type :=
| Ret (a : A)
| RdV (b : buf) (i : Z) (k : V -> prog A)
| WrV (b : buf) (i : Z) (v : V) (k : prog A)
| RdM (b : buf) (i : Z) (k : bool -> prog A)
| WrM (b : buf) (i : Z) (x : bool) (k : prog A)
| UB.
Arguments Ret {A}. Arguments RdV {A}. Arguments WrV {A}. Arguments RdM {A}.
Arguments WrM {A}. Arguments UB {A}.

(** Memory: [None] means that the buffer has no such element. *)
Record mem := { mval : buf -> Z -> option V; mmsk : buf -> Z -> option bool }.

Definition same (b b' : buf) (i i' : Z) : bool := Nat.eqb b b' && (i =? i').

Definition set_v (m : mem) (b : buf) (i : Z) (v : V) : mem :=
  {| mval := fun b' i' => if same b b' i i' then Some v else mval m b' i';
     mmsk := mmsk m |}.

Definition set_m (m : mem) (b : buf) (i : Z) (x : bool) : mem :=
  {| mval := mval m;
     mmsk := fun b' i' => if same b b' i i' then Some x else mmsk m b' i' |}.

(** Sequential execution; [None] is undefined behaviour. *)
Fixpoint run {A} (p : prog A) (m : mem) : option (A * mem) :=
  match p with
  | Ret a => Some (a, m)
  | RdV b i k => match mval m b i with Some v => run (k v) m | None => None end
  | WrV b i v k =>
      match mval m b i with Some _ => run k (set_v m b i v) | None => None end
  | RdM b i k => match mmsk m b i with Some x => run (k x) m | None => None end
  | WrM b i x k =>
      match mmsk m b i with Some _ => run k (set_m m b i x) | None => None end
  | UB => None
  end.

Fixpoint bind {A B} (p : prog A) (f : A -> prog B) : prog B :=
  match p with
  | Ret a => f a
  | RdV b i k => RdV b i (fun v => bind (k v) f)
  | WrV b i v k => WrV b i v (bind k f)
  | RdM b i k => RdM b i (fun x => bind (k x) f)
  | WrM b i x k => WrM b i x (bind k f)
  | UB => UB
  end.

Definition seq {A B} (p : prog A) (q : prog B) : prog B := bind p (fun _ => q).

Definition rdv (b : buf) (i : Z) : prog V := RdV b i Ret.
Definition wrv (b : buf) (i : Z) (v : V) : prog unit := WrV b i v (Ret tt).
Definition rdm (b : buf) (i : Z) : prog bool := RdM b i Ret.
Definition wrm (b : buf) (i : Z) (x : bool) : prog unit := WrM b i x (Ret tt).
Definition skip : prog unit := Ret tt.

(** [for(size_t i = i0; n times; ++i) acc = body(i, acc)] *)
Fixpoint fold_n {A} (n : nat) (i : Z) (body : Z -> A -> prog A) (acc : A) : prog A :=
  match n with
  | O => Ret acc
  | S n' => bind (body i acc) (fun acc' => fold_n n' (i + 1) body acc')
  end.

(** [for(size_t i = b; i < e; ++i) acc = body(i, acc)] *)
Definition fold_range {A} (b e : Z) (body : Z -> A -> prog A) (acc : A) : prog A :=
  fold_n (Z.to_nat (e - b)) b body acc.

(** [for(size_t i = b; i < e; ++i) body(i)] *)
Definition for_range (b e : Z) (body : Z -> prog unit) : prog unit :=
  fold_range b e (fun i _ => body i) tt.

(** Run the programs of a list one after the other, collecting the results. *)
Fixpoint seq_all {A} (ps : list (prog A)) : prog (list A) :=
  match ps with
  | [] => Ret []
  | p :: ps' => bind p (fun a => bind (seq_all ps') (fun l => Ret (a :: l)))
  end.

(** Location-indexed view of a memory, used to state that two memories are equal. *)
Definition same_at (m m' : mem) (l : loc) : Prop :=
  match l with
  | LV b i => mval m b i = mval m' b i
  | LM b i => mmsk m b i = mmsk m' b i
  end.

Definition mem_eq (m m' : mem) : Prop := forall l, same_at m m' l.

(** Footprints.  [fits R W p]: whatever values it reads, [p] only reads locations in [R]
    or [W] and only writes locations in [W]. *)
Fixpoint fits {A} (R W : loc -> bool) (p : prog A) : Prop :=
  match p with
  | Ret _ => True
  | RdV b i k => R (LV b i) || W (LV b i) = true /\ forall v, fits R W (k v)
  | WrV b i _ k => W (LV b i) = true /\ fits R W k
  | RdM b i k => R (LM b i) || W (LM b i) = true /\ forall x, fits R W (k x)
  | WrM b i _ k => W (LM b i) = true /\ fits R W k
  | UB => True
  end.

End Lang.

Arguments prog V A : clear implicits.
Arguments mem V : clear implicits.
Arguments Ret {V A}. Arguments RdV {V A}. Arguments WrV {V A}. Arguments RdM {V A}.
Arguments WrM {V A}. Arguments UB {V A}.

Declare Scope prog_scope.
Delimit Scope prog_scope with prog.
Notation "x <- p ;; q" := (bind p (fun x => q))
  (at level 61, p at next level, right associativity) : prog_scope.
Notation "p ;;; q" := (seq p q) (at level 61, right associativity) : prog_scope.
