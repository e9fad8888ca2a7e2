(** * The types of expressions, and the problems of a module *)
From Coq Require Import String List Bool Arith NArith.
From Verif Require Import AstModel SymbolModel FlagModel AnnotateModel.
Import ListNotations.

Section Spec.
Context {A : Type}.
Variable operations : string -> option aop.
Variable const_type : A -> expression_type.

(** The order in which an operation gets the types of its arguments.  It should be the order
    in which these are written. *)
Variable arrange : list expression_type -> list expression_type.

(** The types of names. *)
Definition typing : Type := string -> expression_type.
Definition set_type (x : string) (t : expression_type) (n : typing) : typing :=
  fun y => if String.eqb y x then t else n y.

Fixpoint all_some {X} (l : list (option X)) : option (list X) :=
  match l with
  | [] => Some []
  | Some x :: l' => match all_some l' with Some xs => Some (x :: xs) | None => None end
  | None :: _ => None
  end.

(** The type of an expression: an operation that is called with the right number of arguments
    says what it is, and it is unknown otherwise.  There is none if the operation cannot say. *)
Fixpoint type_in (n : typing) (e : expr A) : option expression_type :=
  match e with
  | Name _ x => Some (n x)
  | Const _ c => Some (const_type c)
  | Operation _ f args =>
      match all_some (map (type_in n) args) with
      | Some ts =>
          match operations f with
          | Some o =>
              if length args =? length (op_parameters (signature o))
              then result_type o (arrange ts) else Some default_expression_type
          | None => Some default_expression_type
          end
      | None => None
      end
  | Subscript _ _ _ | Attribute _ _ _ => None
  end.

(** All vertices with their types. *)
Fixpoint expr_types (n : typing) (e : expr A) : list (nat * option expression_type) :=
  match e with
  | Name v _ | Const v _ => [(v, type_in n e)]
  | Operation v f args => flat_map (expr_types n) args ++ [(v, type_in n e)]
  | Subscript _ _ _ | Attribute _ _ _ => []
  end.
Fixpoint module_types (n : typing) (m : list (stmt A)) : list (nat * option expression_type) :=
  match m with
  | Assign v x e :: m' =>
      expr_types n e ++ (v, type_in n e) ::
      match type_in n e with Some t => module_types (set_type x t n) m' | None => [] end
  | Expr e :: m' => expr_types n e ++ module_types n m'
  | _ => []
  end.

(** The types of the names after a module, if all its expressions have one, and the types of
    the expression statements. *)
Fixpoint types_after (n : typing) (m : list (stmt A)) : option (typing * list expression_type) :=
  match m with
  | [] => Some (n, [])
  | Assign _ x e :: m' =>
      match type_in n e with Some t => types_after (set_type x t n) m' | None => None end
  | Expr e :: m' =>
      match type_in n e with
      | Some t =>
          match types_after n m' with Some (n', ts) => Some (n', t :: ts) | None => None end
      | None => None
      end
  | _ => None
  end.

(** Modules without control flow, subscripts and attributes. *)
Fixpoint simple (e : expr A) : Prop :=
  match e with
  | Name _ _ | Const _ _ => True
  | Operation _ _ args => fold_right (fun a P => simple a /\ P) True args
  | Subscript _ _ _ | Attribute _ _ _ => False
  end.
Definition simple_stmt (t : stmt A) : Prop :=
  match t with Assign _ _ e | Expr e => simple e | _ => False end.

(** All vertices. *)
Fixpoint expr_nodes (e : expr A) : list nat :=
  match e with
  | Name v _ | Const v _ => [v]
  | Operation v _ args => flat_map expr_nodes args ++ [v]
  | Subscript v e s => expr_nodes e ++ expr_nodes s ++ [v]
  | Attribute v e _ => expr_nodes e ++ [v]
  end.
Fixpoint stmt_nodes (t : stmt A) : list nat :=
  match t with
  | Assign v _ e => expr_nodes e ++ [v]
  | Expr e => expr_nodes e
  | If c t f | While c t f => expr_nodes c ++ flat_map stmt_nodes t ++ flat_map stmt_nodes f
  end.
Definition nodes (m : list (stmt A)) : list nat := flat_map stmt_nodes m.

(** The first problem of an expression, from the left to the right and from the inside to the
    outside. *)
Definition accepts_type (p : list expression_type) (t : expression_type) : bool :=
  existsb (fun q => et_is_satisfied_by q t) p.
Fixpoint first_mismatch (i : nat) (ps : list (list expression_type)) (ts : list (option expression_type))
  : option nat :=
  match ps, ts with
  | p :: ps', Some t :: ts' => if accepts_type p t then first_mismatch (S i) ps' ts' else Some i
  | p :: ps', None :: ts' => Some i
  | _, _ => None
  end.
Definition first_some {X} (l : list (option X)) : option X :=
  fold_right (fun o r => match o with Some x => Some x | None => r end) None l.
Fixpoint problem_in (n : typing) (e : expr A) : option problem :=
  match e with
  | Name v x => if et_defined (n x) then None else Some (UndefinedIdentifier x v)
  | Operation v f args =>
      match first_some (map (problem_in n) args) with
      | Some p => Some p
      | None =>
          match operations f with
          | None => Some (UndefinedOperation f v)
          | Some o =>
              let params := op_parameters (signature o) in
              if length args =? length params then
                match first_mismatch 1 params (map (type_in n) args) with
                | Some i => Some (WrongTypeOfArgument f i v)
                | None => None
                end
              else Some (WrongNumberOfArguments f (length params) (length args) v)
          end
      end
  | _ => None
  end.
Fixpoint problem_of (n : typing) (m : list (stmt A)) : option problem :=
  match m with
  | Assign v x e :: m' =>
      match problem_in n e with
      | Some p => Some p
      | None =>
          match type_in n e with
          | Some t =>
              if et_defined t then problem_of (set_type x t n) m' else Some (UndefinedIdentifier x v)
          | None => None
          end
      end
  | Expr e :: m' => match problem_in n e with Some p => Some p | None => problem_of n m' end
  | _ => None
  end.
End Spec.

(** The types of names that an annotation visitor knows. *)
Definition known_types (s : annot) : typing := fun x => name_type x s.
Definition annot_ready (s : annot) : Prop := scope_level (type_symbols s) = 1.
(** The vertices in [vs] differ, and are not annotated yet. *)
Definition unannotated (vs : list nat) (s : annot) : Prop :=
  NoDup vs /\ forall v, In v vs -> types_of s v = [] /\ operation_of s v = None.

(** An operation whose type does not depend on the direction of its arguments. *)
Definition reversible (o : aop) : Prop :=
  forall ts, length ts = length (op_parameters (signature o)) -> result_type o (rev ts) = result_type o ts.

(** ** Modules without problems *)
Section Valid.
Context {A : Type}.
Variable operations : string -> option aop.
Variable const_type : A -> expression_type.
Variable arrange : list expression_type -> list expression_type.

(** All names have a type, all operations exist and get as many arguments as they have parameters,
    and each parameter accepts the type of its argument. *)
Fixpoint valid (n : typing) (e : expr A) : Prop :=
  match e with
  | Name _ x => et_defined (n x) = true
  | Const _ _ => True
  | Operation _ f args =>
      fold_right (fun a P => valid n a /\ P) True args /\
      exists o, operations f = Some o /\
        Forall2 (fun p a => exists t, type_in operations const_type arrange n a = Some t /\
                   exists q, In q p /\ et_is_satisfied_by q t = true)
          (op_parameters (signature o)) args
  | Subscript _ _ _ | Attribute _ _ _ => False
  end.
(** What is assigned has a type. *)
Fixpoint valid_module (n : typing) (m : list (stmt A)) : Prop :=
  match m with
  | [] => True
  | Assign _ x e :: m' =>
      valid n e /\ exists t, type_in operations const_type arrange n e = Some t /\ et_defined t = true /\
        valid_module (set_type x t n) m'
  | Expr e :: m' => valid n e /\ valid_module n m'
  | _ => False
  end.
End Valid.

(** ** Control flow and selections *)
Section Straight.
Context {A : Type}.

(** An expression statement whose value is selected from another one: the parts, one after the other. *)
Fixpoint parts (e : expr A) : list (expr A) :=
  match e with
  | Subscript _ e sel => parts e ++ parts sel
  | Attribute _ e _ => parts e
  | _ => [e]
  end.
(** The module without control flow that consists of all conditions and branches, in the order of the text. *)
Fixpoint straight_stmt (t : stmt A) : list (stmt A) :=
  match t with
  | Assign v x e => [Assign v x e]
  | Expr e => map Expr (parts e)
  | If c t f | While c t f => map Expr (parts c) ++ flat_map straight_stmt t ++ flat_map straight_stmt f
  end.
Definition straight (m : list (stmt A)) : list (stmt A) := flat_map straight_stmt m.
End Straight.
