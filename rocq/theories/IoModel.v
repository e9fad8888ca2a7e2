(** * Inputs and outputs of a module

    Models [language/ast/visitor/io_visitor.cc].  [_output_id_by_name] is an association list;
    [None] is a failed assertion or an [erase] outside of the vector. *)

From Coq Require Import String List Bool Arith.
From Verif Require Import AstModel SymbolModel.
Import ListNotations.

Section Io.
Context {A : Type}.

(** io_visitor.h *)
Record io := {
  inputs : list string;
  outputs : list nat;
  output_id_by_name : scope nat
}.
Definition io_empty : io := {| inputs := []; outputs := []; output_id_by_name := [] |}.

(** [std::vector::erase]; [None] outside of the vector *)
Fixpoint erase_at {X} (l : list X) (i : nat) : option (list X) :=
  match l, i with
  | [], _ => None
  | _ :: l', O => Some l'
  | x :: l', S i' => match erase_at l' i' with Some l'' => Some (x :: l'') | None => None end
  end.

(** io_visitor.cc:64-70 *)
Definition io_use (x : string) (s : io) : io :=
  if existsb (String.eqb x) (inputs s) then s
  else {| inputs := inputs s ++ [x]; outputs := outputs s;
          output_id_by_name := output_id_by_name s |}.

(** io_visitor.cc:71-84 *)
Definition io_define (id : nat) (x : string) (s : io) : option io :=
  match
    match scope_find (output_id_by_name s) x with
    | Some i => erase_at (outputs s) i
    | None => Some (outputs s)
    end
  with
  | Some o =>
      Some {| inputs := inputs s; outputs := o ++ [id];
              output_id_by_name := scope_set_value (output_id_by_name s) x (length o) |}
  | None => None
  end.

(** Expressions are visited in mode [Using]; ast_visitor.cc:66-71, 110-193, 262-268 *)
Fixpoint io_expr (e : expr A) (s : io) : option io :=
  match e with
  | Name _ x => Some (io_use x s)
  | Const _ _ => Some s
  | Operation _ _ args => visits io_expr args s
  | Subscript _ e sel => match io_expr e s with Some s' => io_expr sel s' | None => None end
  | Attribute _ e _ => io_expr e s
  end.

(** io_visitor.cc:47-57, ast_visitor.cc:125-132, 291-298 *)
Fixpoint io_stmt (t : stmt A) (s : io) : option io :=
  match t with
  | Assign id x e => match io_expr e s with Some s' => io_define id x s' | None => None end
  | Expr e => io_expr e s
  | If c t f | While c t f =>
      match io_expr c s with
      | Some s' => match visits io_stmt t s' with Some s'' => visits io_stmt f s'' | None => None end
      | None => None
      end
  end.

(** io_visitor.cc:89-100 *)
Definition io_module (m : list (stmt A)) : option io :=
  match visits io_stmt m io_empty with
  | Some s => if Nat.eqb (length (output_id_by_name s)) (length (outputs s)) then Some s else None
  | None => None
  end.
End Io.
