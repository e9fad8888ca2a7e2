(** * What the graph of a syntax tree should show *)
From Coq Require Import String List Bool Arith.
From Verif Require Import ThreadModel ThreadSpec TreeGraphModel.
Import ListNotations.

(** Vertices of a tree: expressions, other statements, and scopes *)
Inductive node := OfExpr (e : texpr) | OfStmt (x : tstmt) | OfBlock (b : block tstmt).
Definition statement (x : tstmt) : node := match x with Expression e => OfExpr e | _ => OfStmt x end.
Definition vertex (n : node) : nat :=
  match n with OfExpr e => expr_vertex e | OfStmt x => stmt_vertex x | OfBlock b => block_id b end.

(** What is directly below a vertex.  (The arguments of a function definition and the sentinels of
    scopes and if statements are not among them.) *)
Definition children (n : node) : list node :=
  match n with
  | OfExpr (Leaf _) => []
  | OfExpr (Call _ _ l) | OfExpr (Operator _ l) => map OfExpr l
  | OfExpr (Subscripted _ a b) => [OfExpr a; OfExpr b]
  | OfExpr (Member _ a) => [OfExpr a]
  | OfStmt (Expression e) => [OfExpr e]
  | OfStmt (Assignment _ t e) => [OfExpr t; OfExpr e]
  | OfStmt (Return _ (Some e)) => [OfExpr e]
  | OfStmt (Return _ None) => []
  | OfStmt (Choice _ _ c t f) | OfStmt (Loop _ c t f) => [OfExpr c; OfBlock t; OfBlock f]
  | OfStmt (Definition_ _ _ _ b) => [OfBlock b]
  | OfBlock b => map statement (block_statements b)
  end.

(** From a vertex to one that is in it, with the name of the innermost function around it and the
    scopes around it, the innermost first; a scope is around itself. *)
Definition name_below (n : node) (name : string) : string :=
  match n with OfStmt (Definition_ _ f _ _) => f | _ => name end.
Definition scope_of (n : node) : list nat := match n with OfBlock b => [block_id b] | _ => [] end.
Inductive around : string -> list nat -> node -> string -> list nat -> node -> Prop :=
| Itself name l n : around name l n name l n
| Below name l n c name' l' d :
    In c (children n) -> around (name_below n name) (scope_of c ++ l) c name' l' d -> around name l n name' l' d.
(** [n] is in the script [root] with some name *)
Definition found (source : string) (root : block tstmt) (name : string) (scopes : list nat) (n : node) : Prop :=
  around source [block_id root] (OfBlock root) name scopes n.
Definition inside_of (root : block tstmt) (n : node) : Prop := exists source name scopes, found source root name scopes n.

Section Labels.
Variables (leaf_of : nat -> leaf) (symbol : nat -> string) (types : nat -> list (string * string)).
Definition with_type (name : string) (v : nat) : string :=
  match types v with
  | [] => name ++ "\ndt: -\nvt: -"
  | (d, t) :: _ => name ++ "\ndt: " ++ d ++ "\nvt: " ++ t
  end.
(** What is written in a vertex; [None]: it is not shown. *)
Definition label_of (n : node) : option string :=
  match n with
  | OfExpr (Leaf i) =>
      Some match leaf_of i with
           | NameLeaf x | NumberLeaf x => with_type x i
           | StringLeaf s => "\""" ++ s ++ "\"""
           end%string
  | OfExpr (Call i name _) => Some (with_type name i)
  | OfExpr (Operator i _) => Some (with_type (symbol i) i)
  | OfExpr (Subscripted i _ _) => Some (with_type "[]" i)
  | OfExpr (Member _ _) => None
  | OfStmt (Assignment _ _ _) => Some "="
  | OfStmt (Return _ _) => Some "return"
  | OfStmt (Choice _ _ _ _ _) => Some "If"
  | OfStmt (Loop _ _ _ _) => Some "While"
  | OfStmt (Definition_ _ name _ _) => Some name
  | OfStmt (Expression _) => None
  | OfBlock _ => Some "scope"
  end%string.
(** Whether the type of an expression is written in its vertex *)
Definition has_type (n : node) : bool :=
  match n with
  | OfExpr (Leaf i) => match leaf_of i with StringLeaf _ => false | _ => true end
  | OfExpr (Member _ _) => false
  | OfExpr _ => true
  | _ => false
  end.
Definition is_name (n : node) : bool :=
  match n with OfExpr (Leaf i) => match leaf_of i with NameLeaf _ => true | _ => false end | _ => false end.
End Labels.

(** The children to which a line is drawn *)
Definition connected (n : node) : list node :=
  match n with
  | OfExpr (Member _ _) => []
  | OfStmt (Choice _ _ c _ _) | OfStmt (Loop _ c _ _) => [OfExpr c]
  | OfStmt (Definition_ _ _ _ _) => []
  | OfStmt (Expression _) => []   (* not in a tree: see [statement] *)
  | _ => children n
  end.
(** Whether the control flow from a vertex is drawn *)
Definition flows (n : node) : bool :=
  match n with
  | OfExpr (Member _ _) => false
  | OfExpr _ => true
  | OfStmt (Assignment _ _ _) => true
  | _ => false
  end.

(** The lines of a graph, each with the clusters it is in, the innermost first *)
Fixpoint located (l : list line) (clusters : list nat) : list (list nat * line) :=
  match l with
  | [] => []
  | Opens v x :: l' => (clusters, Opens v x) :: located l' (v :: clusters)
  | Closes :: l' => (clusters, Closes) :: located l' (tl clusters)
  | x :: l' => (clusters, x) :: located l' clusters
  end.
(** The clusters that are open at the end; [None] if one is closed that is not open *)
Fixpoint still_open (l : list line) (clusters : list nat) : option (list nat) :=
  match l with
  | [] => Some clusters
  | Opens v _ :: l' => still_open l' (v :: clusters)
  | Closes :: l' => match clusters with [] => None | _ :: c => still_open l' c end
  | _ :: l' => still_open l' clusters
  end.
Definition shown (l : list line) : list nat := flat_map (fun x => match x with Vertex v _ => [v] | _ => [] end) l.
Definition opened (l : list line) : list nat := flat_map (fun x => match x with Opens v _ => [v] | _ => [] end) l.
(** To where the lines of the tree go from a vertex, in the order in which they are drawn *)
Definition targets (l : list line) (v : nat) : list nat :=
  flat_map (fun x => match x with Edge a w => if a =? v then [w] else [] | _ => [] end) l.
