(** * Linking uses to definitions

    Models [language/ast/visitor/identify_visitor.cc] and the links of
    [language/ast/core/name_vertex.cc].  A vertex is given by its number.  A branch without
    statements is an empty list; it is never null (if_vertex.cc:27-28).  [None] is a failed assertion. *)

From Coq Require Import String List Bool Arith.
From Verif Require Import AstModel SymbolModel.
Import ListNotations.

Section Identify.
Context {A : Type}.

(** identify_visitor.h, name_vertex.h:23-67; the names of the vertices in the table are
    recorded as [name_vertex.cc:84] looks at them *)
Record ident := {
  symbol_table : table (nat * string);
  definitions_of : nat -> list nat;
  uses_of : nat -> list nat
}.

Definition with_table (t : table (nat * string)) (s : ident) : ident :=
  {| symbol_table := t; definitions_of := definitions_of s; uses_of := uses_of s |}.

(** name_vertex.cc:60-64 *)
Definition add_definition (v d : nat) (s : ident) : ident :=
  {| symbol_table := symbol_table s;
     definitions_of := fun w => if w =? v then definitions_of s w ++ [d] else definitions_of s w;
     uses_of := uses_of s |}.

(** name_vertex.cc:73-84 *)
Definition add_use (d : nat) (dname : string) (v : nat) (vname : string) (s : ident) : option ident :=
  if (match definitions_of s d with [] => true | [d'] => d' =? d | _ => false end) &&
     negb (v =? d) && String.eqb dname vname
  then
    Some {| symbol_table := symbol_table s; definitions_of := definitions_of s;
            uses_of := fun w => if w =? d then uses_of s w ++ [v] else uses_of s w |}
  else None.

(** identify_visitor.cc:58-88: mode [Using] *)
Definition identify_use (v : nat) (x : string) (s : ident) : option ident :=
  match definitions_of s v with
  | [] =>
      if has_value (symbol_table s) x then
        match value (symbol_table s) x with
        | Some (d, dname) => add_use d dname v x (add_definition v d s)
        | None => None
        end
      else Some s
  | _ => None
  end.

(** identify_visitor.cc:89-95: mode [Defining] *)
Definition identify_definition (v : nat) (x : string) (s : ident) : option ident :=
  match definitions_of s v with
  | [] =>
      let s' := add_definition v v s in
      match add_value (symbol_table s') x (v, x) with
      | Some t => Some (with_table t s')
      | None => None
      end
  | _ => None
  end.

(** identify_visitor.cc:48-52, 100-104, ast_visitor.cc:66-71, 262-268 *)
Fixpoint identify_expr (e : expr A) (s : ident) : option ident :=
  match e with
  | Name v x => identify_use v x s
  | Const _ _ => Some s
  | Operation _ _ args => visits identify_expr args s
  | Subscript _ e sel =>
      match identify_expr e s with Some s' => identify_expr sel s' | None => None end
  | Attribute _ e _ => identify_expr e s
  end.

(** identify_visitor.cc:25-45, 128-158 *)
Fixpoint identify_stmt (t : stmt A) (s : ident) : option ident :=
  let branch := fun b s =>
    match visits identify_stmt b (with_table (push_scope (symbol_table s)) s) with
    | Some s' =>
        match pop_scope (symbol_table s') with Some t' => Some (with_table t' s') | None => None end
    | None => None
    end in
  match t with
  | Assign v x e =>
      match identify_expr e s with Some s' => identify_definition v x s' | None => None end
  | Expr e => identify_expr e s
  | If c t f | While c t f =>
      match identify_expr c s with
      | Some s1 => match branch t s1 with Some s2 => branch f s2 | None => None end
      | None => None
      end
  end.

(** identify_visitor.cc:117-125 *)
Definition identify_module (m : list (stmt A)) (s : ident) : option ident :=
  if empty (symbol_table s) then
    match visits identify_stmt m (with_table (push_scope (symbol_table s)) s) with
    | Some s' =>
        match pop_scope (symbol_table s') with
        | Some t => if empty t then Some (with_table t s') else None
        | None => None
        end
    | None => None
    end
  else None.

(** Vertices and a visitor that were just made. *)
Definition identify_initial : ident :=
  {| symbol_table := []; definitions_of := fun _ => []; uses_of := fun _ => [] |}.
End Identify.
