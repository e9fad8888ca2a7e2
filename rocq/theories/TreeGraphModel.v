(** * Graphs of syntax trees

    Models [language/ast/visitor/ast_dot_visitor.cc], which makes the graph of
    [fern compile dot ast], with [dot_visitor.cc].  The text for the program dot is a list of lines;
    a vertex is shown by its address.  The tree is that of [ThreadModel].

    Simplifications: what is written in leaves and operators is given per vertex; colours, shapes and
    the parts of the text that do not depend on the script are left out.  A failed assertion, in a
    debug build, is [None]. *)
From Coq Require Import String List Bool Arith.
From Verif Require Import AstModel ThreadModel.
Import ListNotations.

(** name_vertex.h, string_vertex.h, number_vertex.h; a number as [boost::format] writes it *)
Inductive leaf := NameLeaf (name : string) | StringLeaf (value : string) | NumberLeaf (value : string).

(** The lines of a graph: a vertex with its label; an edge of the tree, of the control flow, and to a
    use of a name; the begin of the cluster of a scope with its label, and its end *)
Inductive line :=
| Vertex (v : nat) (label : string)
| Edge (v w : nat) | FlowEdge (v w : nat) | UseEdge (v w : nat)
| Opens (v : nat) (label : string) | Closes.

(** ast_dot_visitor.h:31-36 *)
Inductive graph_mode := Declaring | ConnectingAst | ConnectingCfg | ConnectingUses.

Section Graph.
Variable debug : bool.
Variables (leaf_of : nat -> leaf) (symbol : nat -> string).
(** The expression types of a vertex: the data types and the value types, as [to_string] writes them *)
Variable types : nat -> list (string * string).
(** The successors of all vertices, and the uses of a name *)
Variables (flow : links) (uses : nat -> list nat).

Definition join (a b : option (list line)) : option (list line) :=
  match a, b with Some s, Some t => Some (s ++ t) | _, _ => None end.
Infix "+++" := join (at level 60, right associativity).

Section Joined.
Context {X : Type}.
Variable f : X -> option (list line).
Fixpoint joined (l : list X) : option (list line) :=
  match l with [] => Some [] | x :: l' => f x +++ joined l' end.
End Joined.

(** ast_dot_visitor.cc:19-42; the line break is written as a backslash and an n. *)
Definition expression_label (name : string) (v : nat) : option string :=
  match types v with
  | [] => Some (name ++ "\n" ++ "dt: -\nvt: -")%string
  | (d, t) :: more =>
      if debug && match more with [] => false | _ => true end then None
      else Some (name ++ "\n" ++ "dt: " ++ d ++ "\n" ++ "vt: " ++ t)%string
  end.
Definition vertex_line (v : nat) (label : option string) : option (list line) :=
  match label with Some l => Some [Vertex v l] | None => None end.

(** 65-75 *)
Definition tree_edges (v : nat) (l : list nat) : list line := map (Edge v) l.
(** 106-122 *)
Definition flow_edges (v : nat) : list line := map (FlowEdge v) (successors flow v).
(** 125-141 *)
Definition use_edges (v : nat) : list line := map (UseEdge v) (uses v).

(** What a vertex of an expression adds itself.  144-175 numbers, 223-251 operators, 262-290 function
    calls, 440-471 names, 477-504 subscripts, 554-577 strings; attributes add nothing
    (ast_visitor.cc:66-71, 80-84, 235-239, 277-280). *)
Definition own_expr (m : graph_mode) (e : texpr) : option (list line) :=
  match e with
  | Leaf i =>
      match m with
      | Declaring =>
          vertex_line i match leaf_of i with
            | NameLeaf x => expression_label x i
            | NumberLeaf x => expression_label x i
            | StringLeaf s => Some ("\""" ++ s ++ "\""")%string
            end
      | ConnectingAst => Some []
      | ConnectingCfg => Some (flow_edges i)
      | ConnectingUses => match leaf_of i with NameLeaf _ => Some (use_edges i) | _ => Some [] end
      end
  | Call i name l =>
      match m with
      | Declaring => vertex_line i (expression_label name i)
      | ConnectingAst => Some (tree_edges i (map expr_vertex l))
      | ConnectingCfg => Some (flow_edges i)
      | ConnectingUses => Some []
      end
  | Operator i l =>
      match m with
      | Declaring => vertex_line i (expression_label (symbol i) i)
      | ConnectingAst => Some (tree_edges i (map expr_vertex l))
      | ConnectingCfg => Some (flow_edges i)
      | ConnectingUses => Some []
      end
  | Subscripted i a b =>
      match m with
      | Declaring => vertex_line i (expression_label "[]" i)
      | ConnectingAst => Some (tree_edges i [expr_vertex a; expr_vertex b])
      | ConnectingCfg => Some (flow_edges i)
      | ConnectingUses => Some []
      end
  | Member _ _ => Some []
  end.

(** 253-255, 292-294, 506-507, ast_visitor.cc:69 *)
Fixpoint visit_expr (m : graph_mode) (e : texpr) : option (list line) :=
  own_expr m e +++
  match e with
  | Leaf _ => Some []
  | Call _ _ l | Operator _ l => joined (visit_expr m) l
  | Subscripted _ a b => visit_expr m a +++ visit_expr m b
  | Member _ a => visit_expr m a
  end.

(** 622-659, 662-685; [name] is the top of [_scope_names] *)
Definition visit_block (visit : tstmt -> option (list line)) (m : graph_mode) (name : string) (b : block tstmt) : option (list line) :=
  Some (match m with
        | Declaring => [Vertex (block_id b) "scope"]
        | ConnectingAst => Opens (block_id b) name :: tree_edges (block_id b) (map stmt_vertex (block_statements b))
        | _ => []
        end) +++
  joined visit (block_statements b) +++
  Some (match m with
        | Declaring => [Vertex (block_sentinel b) "sentinel"]
        | ConnectingAst => [Closes]
        | _ => []
        end).

(** 191-217 assignments, 366-395 returns, 398-437 if, 580-619 while, 298-363 function definitions *)
Fixpoint visit_stmt (m : graph_mode) (name : string) (x : tstmt) : option (list line) :=
  match x with
  | Expression e => visit_expr m e
  | Assignment i target e =>
      Some (match m with
            | Declaring => [Vertex i "="]
            | ConnectingAst => tree_edges i [expr_vertex target; expr_vertex e]
            | ConnectingCfg => flow_edges i
            | ConnectingUses => []
            end) +++ visit_expr m e +++ visit_expr m target
  | Return i e =>
      Some (match m with
            | Declaring => [Vertex i "return"]
            | ConnectingAst => match e with Some e => tree_edges i [expr_vertex e] | None => [] end
            | _ => []
            end) +++ match e with Some e => visit_expr m e | None => Some [] end
  | Choice i _ c t f =>
      Some (match m with
            | Declaring => [Vertex i "If"]
            | ConnectingAst => tree_edges i [expr_vertex c]
            | _ => []
            end) +++ visit_expr m c +++ visit_block (visit_stmt m name) m name t +++ visit_block (visit_stmt m name) m name f
  | Loop i c t f =>
      Some (match m with
            | Declaring => [Vertex i "While"]
            | ConnectingAst => tree_edges i [expr_vertex c]
            | _ => []
            end) +++ visit_expr m c +++ visit_block (visit_stmt m name) m name t +++ visit_block (visit_stmt m name) m name f
  | Definition_ i name _ b =>
      Some (match m with Declaring => [Vertex i name] | _ => [] end) +++
      visit_block (visit_stmt m name) m name b
  end.

(** 511-551; [source]: the name of the script; [cfg], [use]: the flags in [_modes] *)
Definition tree_graph (cfg use : bool) (source : string) (root : block tstmt) : option (list line) :=
  let visit m := visit_block (visit_stmt m source) m source root in
  visit Declaring +++ visit ConnectingAst +++
  (if cfg then visit ConnectingCfg else Some []) +++
  (if use then visit ConnectingUses else Some []).
End Graph.
