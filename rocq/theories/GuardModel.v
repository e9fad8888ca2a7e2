(** * Scope exit actions

    Models [core/scope_exit.h].  A program constructs, moves, releases and destroys guards in
    some order; guards are numbered in the order of their construction.

    Simplifications: moving the stored function leaves the source with a function that can
    still be called and does the same (as for lambda expressions that capture references, the
    documented use; scope_exit.h:32-34).  Exceptions thrown by the function are not modelled.
    The copy that [makeScopeExit] may make of its result (scope_exit.h:137-143) is left out, as
    by all compilers. *)

From Coq Require Import List Bool Arith.
Import ListNotations.

Inductive event :=
| Construct (function : nat)
| Move (guard : nat)
| Release (guard : nat)
| Destroy (guard : nat).

(** scope_exit.h:59-64; [alive] is false after destruction *)
Record guard := { function : nat; execute_on_destruction : bool; alive : bool }.

(** The guards constructed so far, and the functions that were called, the first one first. *)
Record state := { guards : list guard; called : list nat }.
Definition initial : state := {| guards := []; called := [] |}.

Fixpoint update (l : list guard) (i : nat) (g : guard) : list guard :=
  match l, i with
  | [], _ => []
  | _ :: l', O => g :: l'
  | x :: l', S i' => x :: update l' i' g
  end.

(** A guard that exists; using another one is undefined behaviour *)
Definition live (s : state) (i : nat) : option guard :=
  match nth_error (guards s) i with
  | Some g => if alive g then Some g else None
  | None => None
  end.

Definition step (s : state) (e : event) : option state :=
  match e with
  | Construct f =>
      (* scope_exit.h:91-100 *)
      Some {| guards := guards s ++
                [{| function := f; execute_on_destruction := true; alive := true |}];
              called := called s |}
  | Move i =>
      (* scope_exit.h:72: the default copies the flag *)
      match live s i with
      | Some g =>
          Some {| guards := guards s ++
                    [{| function := function g;
                        execute_on_destruction := execute_on_destruction g; alive := true |}];
                  called := called s |}
      | None => None
      end
  | Release i =>
      (* scope_exit.h:123-128 *)
      match live s i with
      | Some g =>
          Some {| guards := update (guards s) i
                    {| function := function g; execute_on_destruction := false; alive := true |};
                  called := called s |}
      | None => None
      end
  | Destroy i =>
      (* scope_exit.h:109-116 *)
      match live s i with
      | Some g =>
          Some {| guards := update (guards s) i
                    {| function := function g;
                       execute_on_destruction := execute_on_destruction g; alive := false |};
                  called := called s ++
                    (if execute_on_destruction g then [function g] else []) |}
      | None => None
      end
  end.

Fixpoint steps (s : state) (h : list event) : option state :=
  match h with
  | [] => Some s
  | e :: h' => match step s e with Some s' => steps s' h' | None => None end
  end.
