(** * Inlining of definitions that are used once

    Models [language/ast/visitor/optimize_visitor.cc].  [None] is a failed assertion. *)

From Coq Require Import String List Bool Arith.
From Verif Require Import AstModel IdentifyModel.
Import ListNotations.

Section Optimize.
Context {A : Type}.

(** optimize_visitor.h:59-63; a statement that is to be erased is an assignment, and given by
    its target *)
Record opt := {
  inline_expressions : list (nat * expr A);  (* a map *)
  inlined_expressions : list (expr A);
  superfluous_statements : list nat
}.
Definition opt_initial : opt :=
  {| inline_expressions := []; inlined_expressions := []; superfluous_statements := [] |}.

(** [ExpressionVertex::value] of the target of an assignment: the expression that the assignment
    was made with (assignment_vertex.cc:18-33); it is not updated by [set_expression]
    (assignment_vertex.cc:48-53) *)
Fixpoint stmt_values (t : stmt A) : list (nat * expr A) :=
  match t with
  | Assign v _ e => [(v, e)]
  | Expr _ => []
  | If _ t f | While _ t f => flat_map stmt_values t ++ flat_map stmt_values f
  end.
Fixpoint find_value (d : nat) (l : list (nat * expr A)) : option (expr A) :=
  match l with
  | [] => None
  | (v, e) :: l' => if v =? d then Some e else find_value d l'
  end.
Definition value_of (m : list (stmt A)) (d : nat) : option (expr A) := find_value d (flat_map stmt_values m).

(** The links of the names, and the values of the targets. *)
Variable links : ident.
Variable values : nat -> option (expr A).

(** optimize_visitor.cc:27-32 *)
Definition register_expression_for_inlining (use : nat) (e : expr A) (o : opt) : opt :=
  {| inline_expressions := (use, e) :: filter (fun p => negb (fst p =? use)) (inline_expressions o);
     inlined_expressions := inlined_expressions o; superfluous_statements := superfluous_statements o |}.

(** optimize_visitor.cc:115-140 in mode [Using] *)
Definition optimize_name (v : nat) (o : opt) : option opt :=
  match definitions_of links v with
  | [d] =>
      match uses_of links d with
      | [u] =>
          if u =? v then
            match values d with
            | Some e => Some (register_expression_for_inlining v e o)
            | None => None
            end
          else None
      | _ => Some o
      end
  | _ => Some o
  end.

(** ast_visitor.cc:66-71, 262-268 *)
Fixpoint optimize_expr (e : expr A) (o : opt) : option opt :=
  match e with
  | Name v _ => optimize_name v o
  | Const _ _ => Some o
  | Operation _ _ args => visits optimize_expr args o
  | Subscript _ e sel =>
      match optimize_expr e o with Some o' => optimize_expr sel o' | None => None end
  | Attribute _ e _ => optimize_expr e o
  end.

(** Let all statements accept the visitor, which can change them. *)
Section Change.
Variable f : stmt A -> opt -> option (stmt A * opt).
Fixpoint changes (l : list (stmt A)) (o : opt) : option (list (stmt A) * opt) :=
  match l with
  | [] => Some ([], o)
  | t :: l' =>
      match f t o with
      | Some (t', o1) =>
          match changes l' o1 with Some (l2, o2) => Some (t' :: l2, o2) | None => None end
      | None => None
      end
  end.
End Change.

(** optimize_visitor.cc:78-97: an assignment in mode [Using]; ast_visitor.cc:125-132, 291-298 *)
Fixpoint using_stmt (t : stmt A) (o : opt) : option (stmt A * opt) :=
  match t with
  | Assign v x e =>
      match optimize_expr e o with
      | Some o1 =>
          match find_value (expr_id e) (inline_expressions o1) with
          | Some e' =>
              Some (Assign v x e',
                    {| inline_expressions :=
                         filter (fun p => negb (fst p =? expr_id e)) (inline_expressions o1);
                       inlined_expressions := inlined_expressions o1 ++ [e'];
                       superfluous_statements := superfluous_statements o1 |})
          | None => Some (t, o1)
          end
      | None => None
      end
  | Expr e => option_map (pair t) (optimize_expr e o)
  | If c a b =>
      match optimize_expr c o with
      | Some o1 =>
          match changes using_stmt a o1 with
          | Some (a', o2) =>
              match changes using_stmt b o2 with
              | Some (b', o3) => Some (If c a' b', o3)
              | None => None
              end
          | None => None
          end
      | None => None
      end
  | While c a b =>
      match optimize_expr c o with
      | Some o1 =>
          match changes using_stmt a o1 with
          | Some (a', o2) =>
              match changes using_stmt b o2 with
              | Some (b', o3) => Some (While c a' b', o3)
              | None => None
              end
          | None => None
          end
      | None => None
      end
  end.

(** [std::find] and [erase]; expressions are the same object if they have the same number *)
Fixpoint remove_expression (i : nat) (l : list (expr A)) : option (list (expr A)) :=
  match l with
  | [] => None
  | e :: l' => if expr_id e =? i then Some l' else option_map (cons e) (remove_expression i l')
  end.

(** optimize_visitor.cc:35-75: after the visit of the statements of a scope in mode [Defining], the
    superfluous ones among them are erased *)
Definition is_target (v : nat) (t : stmt A) : bool :=
  match t with Assign w _ _ => w =? v | _ => false end.
Definition erase_statements (l : list (stmt A)) (o : opt) : list (stmt A) * opt :=
  (filter (fun t => negb (existsb (fun v => is_target v t) (superfluous_statements o))) l,
   {| inline_expressions := inline_expressions o; inlined_expressions := inlined_expressions o;
      superfluous_statements :=
        filter (fun v => negb (existsb (is_target v) l)) (superfluous_statements o) |}).

(** optimize_visitor.cc:98-110: an assignment in mode [Defining]; a visit of an expression does
    nothing (optimize_visitor.cc:136-138) *)
Fixpoint defining_stmt (t : stmt A) (o : opt) : option (stmt A * opt) :=
  match t with
  | Assign v _ e =>
      match remove_expression (expr_id e) (inlined_expressions o) with
      | Some l =>
          Some (t, {| inline_expressions := inline_expressions o; inlined_expressions := l;
                      superfluous_statements := superfluous_statements o ++ [v] |})
      | None => Some (t, o)
      end
  | Expr _ => Some (t, o)
  | If c a b =>
      match changes defining_stmt a o with
      | Some (a', o1) =>
          let (a2, o2) := erase_statements a' o1 in
          match changes defining_stmt b o2 with
          | Some (b', o3) => let (b2, o4) := erase_statements b' o3 in Some (If c a2 b2, o4)
          | None => None
          end
      | None => None
      end
  | While c a b =>
      match changes defining_stmt a o with
      | Some (a', o1) =>
          let (a2, o2) := erase_statements a' o1 in
          match changes defining_stmt b o2 with
          | Some (b', o3) => let (b2, o4) := erase_statements b' o3 in Some (While c a2 b2, o4)
          | None => None
          end
      | None => None
      end
  end.

Definition all_empty (o : opt) : bool :=
  match o with
  | {| inline_expressions := []; inlined_expressions := []; superfluous_statements := [] |} => true
  | _ => false
  end.

(** optimize_visitor.cc:143-170: at most [fuel] rounds are made; [None] if these are not enough,
    too *)
Fixpoint optimize_rounds (fuel : nat) (m : list (stmt A)) : option (list (stmt A)) :=
  match fuel with
  | O => None
  | S fuel' =>
      match changes using_stmt m opt_initial with
      | Some (m1, o1) =>
          let again := match inlined_expressions o1 with [] => false | _ => true end in
          match changes defining_stmt m1 o1 with
          | Some (m2, o2) =>
              let (m3, o3) := erase_statements m2 o2 in
              if all_empty o3 then if again then optimize_rounds fuel' m3 else Some m3 else None
          | None => None
          end
      | None => None
      end
  end.
End Optimize.

(** The links are set by an identify visitor before, as interpreter.cc:266-267 does; nothing in
    the library lets a module accept an optimize visitor. *)
Definition optimize {A} (fuel : nat) (m : list (stmt A)) : option (list (stmt A)) :=
  match identify_module m identify_initial with
  | Some links => optimize_rounds links (value_of m) fuel m
  | None => None
  end.
