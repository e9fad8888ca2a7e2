(** * What symbol tables are expected to do

    The value of a name is described by looking back in the history of calls. *)
From Coq Require Import String List Bool Arith.
From Verif Require Import SymbolModel.
Import ListNotations.

Section Spec.
Context {T : Type}.

(** Looks for the visible value of [name] in the past, the most recent call first.  [closed]
    is the number of scopes that are opened and closed after the calls looked at; [gone]
    tells that, after those calls, [name] was erased from the scope they belong to. *)
Fixpoint visible (name : string) (past : list (call T)) (closed : nat) (gone : bool)
  : option T :=
  match past with
  | [] => None
  | PopScope :: past' => visible name past' (S closed) gone
  | PushScope :: past' =>
      match closed with
      | O => visible name past' 0 false
      | S closed' => visible name past' closed' gone
      end
  | ClearScope :: past' => visible name past' closed (gone || (closed =? 0))
  | EraseValue n :: past' =>
      visible name past' closed (gone || ((closed =? 0) && String.eqb n name))
  | AddValue n v :: past' =>
      if (closed =? 0) && negb gone && String.eqb n name then Some v
      else visible name past' closed gone
  end.

(** The number of open scopes after a history. *)
Fixpoint open_scopes (past : list (call T)) : nat :=
  match past with
  | [] => 0
  | PushScope :: past' => S (open_scopes past')
  | PopScope :: past' => pred (open_scopes past')
  | _ :: past' => open_scopes past'
  end.

(** A history that closes the scopes it opens, and only those; [depth] scopes are open
    already. *)
Fixpoint closes (depth : nat) (cs : list (call T)) : Prop :=
  match cs with
  | [] => depth = 0
  | PushScope :: cs' => closes (S depth) cs'
  | PopScope :: cs' => match depth with O => False | S d => closes d cs' end
  | _ :: cs' => closes depth cs'
  end.
Definition balanced (cs : list (call T)) : Prop := closes 0 cs.
End Spec.
