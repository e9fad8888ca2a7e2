(** * Scopes and symbol tables

    Models [core/scope.h] and [language/core/symbol_table.h].  A failed assertion is [None].
    Copying and moving tables is copying the list of scopes and is not modelled. *)

From Coq Require Import String List Bool Arith.
Import ListNotations.

Section Symbols.
Context {T : Type}.

(** [std::map<std::string, Value>], as a list without duplicate names in the order in which
    the names were first added (the order of iteration is not modelled); scope.h:17-61, 114-126 *)
Definition scope : Type := list (string * T).

(** scope.h:129-134 [size] *)
Definition scope_size (s : scope) : nat := length s.

(** [find]; scope.h:157-163 [has_value] *)
Fixpoint scope_find (s : scope) (name : string) : option T :=
  match s with
  | [] => None
  | (n, v) :: s' => if String.eqb n name then Some v else scope_find s' name
  end.
Definition scope_has_value (s : scope) (name : string) : bool :=
  match scope_find s name with Some _ => true | None => false end.

(** scope.h:137-144 [set_value] *)
Fixpoint scope_set_value (s : scope) (name : string) (value : T) : scope :=
  match s with
  | [] => [(name, value)]
  | (n, v) :: s' =>
      if String.eqb n name then (n, value) :: s' else (n, v) :: scope_set_value s' name value
  end.

(** scope.h:147-154 [erase_value] *)
Definition scope_erase_value (s : scope) (name : string) : option scope :=
  if scope_has_value s name
  then Some (filter (fun b => negb (String.eqb (fst b) name)) s)
  else None.

(** scope.h:166-173 [value] *)
Definition scope_value (s : scope) (name : string) : option T := scope_find s name.

(** [std::vector<Scope<T>>], symbol_table.h:83; the last element is the innermost scope *)
Definition table : Type := list scope.

(** [_scopes.back()] is replaced by the result of [f]; the vector must not be empty. *)
Fixpoint on_back (f : scope -> option scope) (t : table) : option table :=
  match t with
  | [] => None
  | [s] => match f s with Some s' => Some [s'] | None => None end
  | s :: t' => match on_back f t' with Some t'' => Some (s :: t'') | None => None end
  end.

(** symbol_table.h:144-149 *)
Definition push_scope (t : table) : table := t ++ [[]].

(** symbol_table.h:159-165 *)
Definition pop_scope (t : table) : option table :=
  match t with [] => None | _ => Some (removelast t) end.

(** symbol_table.h:168-174; [clear] is scope.h:176-181 *)
Definition clear_scope (t : table) : option table := on_back (fun _ => Some []) t.

(** symbol_table.h:185-190 *)
Definition scope_level (t : table) : nat := length t.

(** symbol_table.h:284-299 *)
Definition has_value (t : table) (name : string) : bool :=
  existsb (fun s => scope_has_value s name) t.

(** symbol_table.h:207-218: the loop; [result] is the value of the variable before it is
    decremented. *)
Fixpoint level_loop (t : table) (name : string) (result : nat) : nat :=
  match result with
  | O => O
  | S r =>
      match nth_error t r with
      | Some s => if scope_has_value s name then S r else level_loop t name r
      | None => level_loop t name r
      end
  end.

(** symbol_table.h:198-221 *)
Definition scope_level_of (t : table) (name : string) : option nat :=
  if has_value t name then Some (level_loop t name (length t)) else None.

(** symbol_table.h:224-232 *)
Definition scope_at (t : table) (level : nat) : option scope :=
  if (level <=? length t) && (0 <? level) then nth_error t (level - 1) else None.

(** symbol_table.h:243-266 *)
Definition add_value (t : table) (name : string) (value : T) : option table :=
  on_back (fun s => Some (scope_set_value s name value)) t.

(** symbol_table.h:273-281; [erase_value] of the scope asserts the same *)
Definition erase_value (t : table) (name : string) : option table :=
  on_back (fun s => if scope_has_value s name then scope_erase_value s name else None) t.

(** symbol_table.h:302-318: the reversed loop *)
Fixpoint value_loop (t : table) (name : string) : option T :=
  match t with
  | [] => None
  | s :: t' => if scope_has_value s name then scope_value s name else value_loop t' name
  end.
Definition value (t : table) (name : string) : option T :=
  if has_value t name then value_loop (rev t) name else None.

(** symbol_table.h:329-340, 321-326 *)
Definition size (t : table) : nat := fold_left (fun result s => result + scope_size s) t 0.
Definition empty (t : table) : bool := size t =? 0.

(** The calls that change a table. *)
Inductive call :=
| PushScope
| PopScope
| ClearScope
| AddValue (name : string) (v : T)
| EraseValue (name : string).

Definition perform (t : table) (c : call) : option table :=
  match c with
  | PushScope => Some (push_scope t)
  | PopScope => pop_scope t
  | ClearScope => clear_scope t
  | AddValue name v => add_value t name v
  | EraseValue name => erase_value t name
  end.

(** A history of calls, the first one first. *)
Fixpoint performs (t : table) (cs : list call) : option table :=
  match cs with
  | [] => Some t
  | c :: cs' => match perform t c with Some t' => performs t' cs' | None => None end
  end.
End Symbols.
Arguments scope T : clear implicits.
Arguments table T : clear implicits.
Arguments call T : clear implicits.
