(** * Abstract syntax trees

    Models [language/ast/core].  Every expression vertex has a number, which stands for its
    address: two vertices are the same object if and only if they have the same number.

    Simplifications: the value of a number or string vertex is given as the argument that the
    interpreter makes of it; function calls and operators are both [Operation] (they differ in
    the name only, function_call_vertex.cc and operator_vertex.cc); positions in the source
    text are left out.  Function definitions and return statements are added in [FunctionModel]. *)

From Coq Require Import String List Bool Arith.
Import ListNotations.

Section Ast.
Context {A : Type}.

Inductive expr :=
| Name (id : nat) (name : string)                          (* name_vertex.h:23-67 *)
| Const (id : nat) (value : A)                             (* number_vertex.h, string_vertex.h *)
| Operation (id : nat) (name : string) (args : list expr)  (* operation_vertex.h *)
| Subscript (id : nat) (e selection : expr)                (* subscript_vertex.h *)
| Attribute (id : nat) (e : expr) (member : string).       (* attribute_vertex.h *)

Inductive stmt :=
| Assign (target : nat) (name : string) (e : expr)  (* assignment_vertex.h; the target is a name *)
| Expr (e : expr)
| If (condition : expr) (true_scope false_scope : list stmt)     (* if_vertex.h *)
| While (condition : expr) (true_scope false_scope : list stmt). (* while_vertex.h *)

Definition expr_id (e : expr) : nat :=
  match e with
  | Name i _ | Const i _ | Operation i _ _ | Subscript i _ _ | Attribute i _ _ => i
  end.

(** Let all vertices of a list accept a visitor with state [S]; [None] is a failed assertion.
    ast_visitor.cc:20-39 *)
Section Visit.
Context {X S : Type}.
Variable f : X -> S -> option S.
Fixpoint visits (l : list X) (s : S) : option S :=
  match l with
  | [] => Some s
  | x :: l' => match f x s with Some s' => visits l' s' | None => None end
  end.
End Visit.

Section ExprInd.
Variable P : expr -> Prop.
Hypothesis HName : forall i x, P (Name i x).
Hypothesis HConst : forall i v, P (Const i v).
Hypothesis HOperation : forall i f args, Forall P args -> P (Operation i f args).
Hypothesis HSubscript : forall i e s, P e -> P s -> P (Subscript i e s).
Hypothesis HAttribute : forall i e m, P e -> P (Attribute i e m).
Fixpoint expr_induction (e : expr) : P e :=
  match e with
  | Name i x => HName i x
  | Const i v => HConst i v
  | Operation i f args =>
      HOperation i f args
        ((fix go l : Forall P l :=
            match l with [] => Forall_nil P | x :: l' => Forall_cons x (expr_induction x) (go l') end) args)
  | Subscript i e s => HSubscript i e s (expr_induction e) (expr_induction s)
  | Attribute i e m => HAttribute i e m (expr_induction e)
  end.
End ExprInd.

Section StmtInd.
Variable P : stmt -> Prop.
Hypothesis HAssign : forall t x e, P (Assign t x e).
Hypothesis HExpr : forall e, P (Expr e).
Hypothesis HIf : forall c t f, Forall P t -> Forall P f -> P (If c t f).
Hypothesis HWhile : forall c t f, Forall P t -> Forall P f -> P (While c t f).
Fixpoint stmt_induction (s : stmt) : P s :=
  let all := fix go l : Forall P l :=
    match l with [] => Forall_nil P | x :: l' => Forall_cons x (stmt_induction x) (go l') end in
  match s with
  | Assign t x e => HAssign t x e
  | Expr e => HExpr e
  | If c t f => HIf c t f (all t) (all f)
  | While c t f => HWhile c t f (all t) (all f)
  end.
End StmtInd.
End Ast.
Arguments expr A : clear implicits.
Arguments stmt A : clear implicits.
