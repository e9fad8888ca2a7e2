(** * What is expected of handles *)
From Coq Require Import ZArith List Bool Arith Permutation.
From Verif Require Import HandleModel.
Import ListNotations.
Open Scope Z_scope.

Definition alive (s : state) (h : nat) : Prop := In h (map fst (handles s)).
Definition holds (s : state) (h : nat) (id : Z) : Prop := In (h, id) (handles s).
(** What the handles hold; 0 is nothing *)
Definition held (s : state) : list Z := filter (fun id => negb (id =? 0)) (map snd (handles s)).

(** What is open is what is held, by one handle each, and no library was asked for what is not open *)
Definition one_handle (s : state) : Prop :=
  NoDup (map fst (handles s)) /\ NoDup (opened s) /\ Permutation (opened s) (held s) /\ Forall (fun id => 0 < id) (opened s) /\
  refused s = 0%nat.

(** What programs can do *)
Definition possible (k : kind) (a : action) (s : state) : Prop :=
  match a with
  | Open h id => ~ alive s h /\ 0 < id /\ ~ In id (opened s)
  | Default h => ~ alive s h /\ (k = Hdf5 \/ k = Hdf5File)
  | MoveConstruct h other => ~ alive s h /\ alive s other /\ k <> Hdf5File
  | MoveAssign h other => alive s h /\ alive s other /\ k <> Hdf5File
  | Destroy h => alive s h
  | Use h => exists id, holds s h id /\ id <> 0
  | TypeClass h => k = Hdf5 /\ exists id, holds s h id /\ id <> 0
  end.
Fixpoint possible_all (k : kind) (debug : bool) (l : list action) (s : state) : Prop :=
  match l with
  | [] => True
  | a :: l' => possible k a s /\ forall s', act k debug a s = Ok s' -> possible_all k debug l' s'
  end.

Definition is_move (a : action) : Prop := match a with MoveConstruct _ _ | MoveAssign _ _ => True | _ => False end.
