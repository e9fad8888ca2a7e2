(** * What scope exit guards are expected to do *)
From Coq Require Import List Arith.
From Verif Require Import GuardModel.
Import ListNotations.

(** The number of guards constructed in a history. *)
Definition creates (e : event) : nat :=
  match e with Construct _ | Move _ => 1 | Release _ | Destroy _ => 0 end.
Fixpoint created (h : list event) : nat :=
  match h with [] => 0 | e :: h' => creates e + created h' end.

(** After history [h], guard [i] is responsible for calling function [f]: it was constructed
    for it, or moved from a guard that was responsible then, and was not released or destroyed
    since.  Being moved from does not end the responsibility. *)
Inductive responsible (f i : nat) : list event -> Prop :=
| responsible_constructed h : i = created h -> responsible f i (h ++ [Construct f])
| responsible_moved h j : i = created h -> responsible f j h -> responsible f i (h ++ [Move j])
| responsible_still h e :
    responsible f i h -> e <> Release i -> e <> Destroy i -> responsible f i (h ++ [e]).

(** How often function [f] was called. *)
Definition calls (f : nat) (s : state) : nat := count_occ Nat.eq_dec (called s) f.
