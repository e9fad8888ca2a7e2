(** * Flow graphs of scripts

    Models [language/ast/visitor/flowgraph_dot_visitor.cc], which makes the graph of
    [fern compile dot flowgraph], and [dot_visitor.cc].  The text for the program dot is a list of
    lines; a vertex is shown by its address.

    Simplifications: as in [AstModel].  [If] vertices have no number: their address is in the line
    that declares them and nowhere else.  The parts of the text that do not depend on the script are
    left out. *)
From Coq Require Import String List Bool Arith.
From Verif Require Import AstModel IdentifyModel.
Import ListNotations.

(** The lines of a graph: a vertex with its label, the diamond of an [If], an edge, the begin of the
    cluster with some number, and its end *)
Inductive line := Vertex (v : nat) (label : string) | Diamond | Edge (v w : nat) | Opens (k : nat) | Closes.

Section Flow.
Context {A : Type}.
(** The links that the identify visitor has made *)
Variable found : ident.
(** What is shown for a number or string, and for an operation (the symbol of an operator) *)
Variables (constant : A -> string) (symbol : string -> string).

(** flowgraph_dot_visitor.cc:34-98 *)
Definition connect (source : expr A) (target : nat) : list line :=
  match source with
  | Name v _ =>
      match definitions_of found v with
      | [] => [Edge v target]
      | l => map (fun d => Edge d target) l
      end
  | _ => [Edge (expr_id source) target]
  end.

(** Mode [Declaring].  flowgraph_dot_visitor.cc:135-158 and 355-379 function calls and operators,
    214-237 names, 240-261 subscripts, 264-282 numbers, 382-398 strings; attributes by
    ast_visitor.cc:66-71 *)
Definition declare_name (v : nat) (x : string) : list line :=
  match definitions_of found v with
  | [] => [Vertex v x]
  | l => if existsb (Nat.eqb v) l then [Vertex v x] else []
  end.
Fixpoint declare_expr (e : expr A) : list line :=
  match e with
  | Name v x => declare_name v x
  | Const i a => [Vertex i (constant a)]
  | Operation i f args => Vertex i (symbol f) :: flat_map declare_expr args
  | Subscript i e s => Vertex i "[]" :: declare_expr e ++ declare_expr s
  | Attribute _ e _ => declare_expr e
  end.
(** 114-132 assignments, 161-211 if, 401-404 while *)
Fixpoint declare_stmt (t : stmt A) : list line :=
  match t with
  | Assign v x e => declare_expr e ++ declare_name v x
  | Expr e => declare_expr e
  | If c t f => Diamond :: declare_expr c ++ flat_map declare_stmt t ++ flat_map declare_stmt f
  | While _ _ _ => []
  end.

(** Mode [ConnectingFlowgraph]; the same lines *)
Fixpoint connect_expr (e : expr A) : list line :=
  match e with
  | Name _ _ | Const _ _ => []
  | Operation i _ args => flat_map (fun a => connect a i) args ++ flat_map connect_expr args
  | Subscript i e s => (connect e i ++ connect s i) ++ connect_expr e ++ connect_expr s
  | Attribute _ e _ => connect_expr e
  end.
(** [k]: the static number of the next cluster, which is returned too *)
Fixpoint connect_stmt (t : stmt A) (k : nat) : list line * nat :=
  let block := fix block l k :=
    match l with
    | [] => ([], k)
    | t :: l => let (a, k) := connect_stmt t k in let (b, k) := block l k in (a ++ b, k)
    end in
  match t with
  | Assign v x e => (connect e v ++ connect_expr e, k)
  | Expr e => (connect_expr e, k)
  | If c t f =>
      let (a, k1) := block t (S k) in
      let t_lines := connect_expr c ++ Opens k :: a ++ [Closes] in
      match f with
      | [] => (t_lines, k1)
      | _ => let (b, k2) := block f (S k1) in (t_lines ++ Opens k1 :: b ++ [Closes], k2)
      end
  | While _ _ _ => ([], k)
  end.
Fixpoint connect_block (l : list (stmt A)) (k : nat) : list line * nat :=
  match l with
  | [] => ([], k)
  | t :: l => let (a, k) := connect_stmt t k in let (b, k) := connect_block l k in (a ++ b, k)
  end.

(** 407-434 *)
Definition flow_graph (m : list (stmt A)) (k : nat) : list line := flat_map declare_stmt m ++ fst (connect_block m k).
End Flow.

(** 382-393: the label of a string; the text between the quotes of dot *)
Definition string_label (value : string) : string := "\""" ++ value ++ "\""".
