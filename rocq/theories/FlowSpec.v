(** * What a flow graph should show *)
From Coq Require Import String List Bool Arith Ascii.
From Verif Require Import AstModel IdentifySpec FlowModel.
Import ListNotations.

Local Open Scope string_scope.

Section Spec.
Context {A : Type}.

(** Parts of expressions, and what is in a module outside of [while] statements *)
Inductive part (e : expr A) : expr A -> Prop :=
| Itself : part e e
| Of_operation i f args a : In a args -> part e a -> part e (Operation i f args)
| Of_subscripted i a s : part e a -> part e (Subscript i a s)
| Of_selection i a s : part e s -> part e (Subscript i a s)
| Of_attribute i a x : part e a -> part e (Attribute i a x).
Inductive in_statement (e : expr A) : stmt A -> Prop :=
| Assigned_from v x a : part e a -> in_statement e (Assign v x a)
| Alone a : part e a -> in_statement e (Expr a)
| Condition c t f : part e c -> in_statement e (If c t f)
| In_true c t f s : In s t -> in_statement e s -> in_statement e (If c t f)
| In_false c t f s : In s f -> in_statement e s -> in_statement e (If c t f).
Definition shown (m : list (stmt A)) (e : expr A) : Prop := exists s, In s m /\ in_statement e s.
Inductive assigns (v : nat) (x : string) (e : expr A) : stmt A -> Prop :=
| Here : assigns v x e (Assign v x e)
| True_assigns c t f s : In s t -> assigns v x e s -> assigns v x e (If c t f)
| False_assigns c t f s : In s f -> assigns v x e s -> assigns v x e (If c t f).
Definition assigned (m : list (stmt A)) (v : nat) (x : string) (e : expr A) : Prop := exists s, In s m /\ assigns v x e s.

(** The vertex a value comes from: for a name with a definition that is the definition. *)
Definition comes_from (m : list (stmt A)) (e : expr A) (v : nat) : Prop :=
  match e with
  | Name i _ => exists o, In (i, o) (links nothing m) /\ v = match o with Some d => d | None => i end
  | _ => v = expr_id e
  end.
Definition operand (a e : expr A) : Prop :=
  match e with
  | Operation _ _ args => In a args
  | Subscript _ b s => a = b \/ a = s
  | _ => False
  end.
Definition is_attribute (e : expr A) : Prop := match e with Attribute _ _ _ => True | _ => False end.

(** What is written in the vertex of an expression *)
Definition label_of (constant : A -> string) (symbol : string -> string) (e : expr A) : string :=
  match e with
  | Name _ x => x
  | Const _ a => constant a
  | Operation _ f _ => symbol f
  | Subscript _ _ _ => "[]"
  | Attribute _ _ x => x
  end.

(** The numbers of all vertices of expressions, those in [while] statements included *)
Fixpoint expr_ids (e : expr A) : list nat :=
  match e with
  | Name i _ | Const i _ => [i]
  | Operation i _ args => i :: flat_map expr_ids args
  | Subscript i e s => i :: expr_ids e ++ expr_ids s
  | Attribute i e _ => i :: expr_ids e
  end.
Fixpoint stmt_ids (t : stmt A) : list nat :=
  match t with
  | Assign v _ e => expr_ids e ++ [v]
  | Expr e => expr_ids e
  | If c t f | While c t f => expr_ids c ++ flat_map stmt_ids t ++ flat_map stmt_ids f
  end.
Definition ids (m : list (stmt A)) : list nat := flat_map stmt_ids m.
End Spec.

(** How dot reads what is behind a double quote: until the next one that does not follow a backslash
    which is not itself escaped; [None] if there is none, otherwise what follows. *)
Fixpoint read_quoted (escaped : bool) (s : string) : option string :=
  match s with
  | EmptyString => None
  | String c r =>
      if escaped then read_quoted false r
      else if Ascii.eqb c """" then Some r
      else read_quoted (Ascii.eqb c "\") r
  end.

(** How deep in clusters a graph ends that begins in some depth; [None] if a cluster is closed that is
    not open.  The numbers of the clusters that are opened. *)
Fixpoint closed (depth : nat) (l : list line) : option nat :=
  match l with
  | [] => Some depth
  | Opens _ :: l => closed (S depth) l
  | Closes :: l => match depth with O => None | S d => closed d l end
  | _ :: l => closed depth l
  end.
Definition opened (l : list line) : list nat := flat_map (fun x => match x with Opens k => [k] | _ => [] end) l.
