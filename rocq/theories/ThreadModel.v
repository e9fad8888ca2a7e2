(** * Threading of syntax trees

    Models [language/ast/visitor/thread_visitor.cc], the visitor that links the vertices of a
    syntax tree into a control flow graph, and the successors of a vertex in
    [language/ast/core/ast_vertex.cc].  Every vertex has a number, which stands for its address.

    Simplifications: names, strings and numbers are one kind of leaf and operators carry no
    symbol, since the visitor treats them alike; the arguments of a function definition are
    names, as the parser makes them.  A failed assertion, and looking at the top of an empty
    stack (undefined), is [None]. *)

From Coq Require Import String List Bool Arith.
From Verif Require Import AstModel SymbolModel.
Import ListNotations.

(** name_vertex.h, string_vertex.h, number_vertex.h; function_call_vertex.h; operator_vertex.h;
    subscript_vertex.h; attribute_vertex.h *)
Inductive texpr :=
| Leaf (id : nat)
| Call (id : nat) (name : string) (args : list texpr)
| Operator (id : nat) (args : list texpr)
| Subscripted (id : nat) (e selection : texpr)
| Member (id : nat) (e : texpr).

(** scope_vertex.h: a scope has statements and a sentinel. *)
Inductive block (X : Type) := Block (id sentinel : nat) (statements : list X).
Arguments Block {X} id sentinel statements.
Definition block_id {X} (b : block X) : nat := let (i, _, _) := b in i.
Definition block_sentinel {X} (b : block X) : nat := let (_, k, _) := b in k.
Definition block_statements {X} (b : block X) : list X := let (_, _, l) := b in l.

(** assignment_vertex.h, return_vertex.h, if_vertex.h (which has a sentinel), while_vertex.h,
    function_definition_vertex.h *)
Inductive tstmt :=
| Expression (e : texpr)
| Assignment (id : nat) (target e : texpr)
| Return (id : nat) (e : option texpr)
| Choice (id sentinel : nat) (condition : texpr) (true_scope false_scope : block tstmt)
| Loop (id : nat) (condition : texpr) (true_scope false_scope : block tstmt)
| Definition_ (id : nat) (name : string) (args : list nat) (scope : block tstmt).

(** module_vertex.h *)
Inductive tmodule := Module_ (id : nat) (scope : block tstmt).

(** The successors of all vertices: the links in the order in which they were added;
    ast_vertex.h [_successors] *)
Definition links : Type := list (nat * nat).

(** ast_vertex.cc:83-86 *)
Definition successors (g : links) (v : nat) : list nat :=
  map snd (filter (fun l => fst l =? v) g).

(** ast_vertex.cc:89-92 *)
Definition has_successor (g : links) (v : nat) : bool :=
  match successors g v with [] => false | _ => true end.

(** ast_vertex.cc:146-151 *)
Definition add_successor (g : links) (v w : nat) : links := g ++ [(v, w)].

(** ast_vertex.cc:164-169: asserts that there is no successor yet *)
Definition set_successor (g : links) (v w : nat) : option links :=
  if has_successor g v then None else Some (add_successor g v w).

(** thread_visitor.h: [_last_vertex], [_symbol_table] with the number of the definition and of
    the sentinel of its scope, [_function_definitions] with the sentinels of their scopes; and
    the successors. *)
Record thread := {
  graph : links;
  last_vertex : option nat;
  functions : table (nat * nat);
  inside : list nat }.

Definition with_graph (g : links) (s : thread) : thread :=
  {| graph := g; last_vertex := last_vertex s; functions := functions s; inside := inside s |}.
Definition with_last (v : option nat) (s : thread) : thread :=
  {| graph := graph s; last_vertex := v; functions := functions s; inside := inside s |}.
Definition with_functions (t : table (nat * nat)) (s : thread) : thread :=
  {| graph := graph s; last_vertex := last_vertex s; functions := t; inside := inside s |}.
Definition with_inside (l : list nat) (s : thread) : thread :=
  {| graph := graph s; last_vertex := last_vertex s; functions := functions s; inside := l |}.

(** [_last_vertex->set_successor(v)]; the last vertex must not be null. *)
Definition link_last (v : nat) (s : thread) : option thread :=
  match last_vertex s with
  | None => None
  | Some l =>
      match set_successor (graph s) l v with
      | Some g => Some (with_graph g s)
      | None => None
      end
  end.

(** thread_visitor.cc:28-35 *)
Definition thread_to (v : nat) (s : thread) : option thread :=
  match last_vertex s with
  | None => Some (with_last (Some v) s)
  | Some _ =>
      match link_last v s with
      | Some s' => Some (with_last (Some v) s')
      | None => None
      end
  end.

Definition then_ (r : option thread) (f : thread -> option thread) : option thread :=
  match r with Some s => f s | None => None end.

(** Expressions, in the mode in which they are threaded; thread_visitor.cc:57-90 function calls,
    135-149 operators, 173-267 names, strings, numbers, subscripts and attributes *)
Fixpoint visit_expr (e : texpr) (s : thread) : option thread :=
  match e with
  | Leaf i => thread_to i s
  | Call i name args =>
      then_ (visits visit_expr args s) (fun s =>
      then_ (thread_to i s) (fun s =>
      match value (functions s) name with
      | None => Some s
      | Some (definition, exit) =>
          then_ (thread_to definition s) (fun s => Some (with_last (Some exit) s))
      end))
  | Operator i args => then_ (visits visit_expr args s) (thread_to i)
  | Subscripted i e1 e2 => then_ (visit_expr e1 s) (fun s => then_ (visit_expr e2 s) (thread_to i))
  | Member i e1 => then_ (visit_expr e1 s) (thread_to i)
  end.

(** The vertex of a statement. *)
Definition expr_vertex (e : texpr) : nat :=
  match e with
  | Leaf i | Call i _ _ | Operator i _ | Subscripted i _ _ | Member i _ => i
  end.
Definition stmt_vertex (x : tstmt) : nat :=
  match x with
  | Expression e => expr_vertex e
  | Assignment i _ _ | Return i _ | Choice i _ _ _ _ | Loop i _ _ _ | Definition_ i _ _ _ => i
  end.

(** thread_visitor.cc:296-311 sentinel *)
Definition visit_sentinel (k : nat) (s : thread) : option thread :=
  then_ (link_last k s) (fun s => Some (with_last (Some k) s)).

(** thread_visitor.h [Mode] *)
Inductive mode := Definitions | Others.

Section Scope.
Variable visit : mode -> tstmt -> thread -> option thread.

(** thread_visitor.cc:408-423: the statements of a scope with sentinel [k] *)
Fixpoint visit_statements (k : nat) (l : list tstmt) (s : thread) : option thread :=
  match l with
  | [] => Some s
  | x :: l' =>
      match visit Others x s with
      | None => None
      | Some s =>
          match last_vertex s with
          | None => None
          | Some v =>
              match successors (graph s) v with
              | [] => visit_statements k l' s
              | w :: _ => if w =? k then visit_statements k l' (with_last None s) else None
              end
          end
      end
  end.

(** thread_visitor.cc:425-435 *)
Definition finish (k : nat) (l : list tstmt) (s : thread) : option thread :=
  match last_vertex s with
  | Some _ => visit_sentinel k s
  | None =>
      match rev l with
      | [] => None
      | x :: _ =>
          match successors (graph s) (stmt_vertex x) with
          | w :: _ => if w =? k then Some (with_last (Some k) s) else None
          | [] => None
          end
      end
  end.

(** thread_visitor.cc:367-441 *)
Definition visit_scope (b : block tstmt) (s : thread) : option thread :=
  let (i, k, l) := b in
  match last_vertex s with
  | None => None
  | Some v =>
      then_ (visits (visit Definitions) l
               (with_last (Some i) (with_functions (push_scope (functions s)) s))) (fun s =>
      let s := with_last (Some i) (with_graph (add_successor (graph s) v i) s) in
      then_ (visit_statements k l s) (fun s =>
      then_ (finish k l s) (fun s =>
      match pop_scope (functions s) with
      | Some t => Some (with_functions t s)
      | None => None
      end)))
  end.
End Scope.

(** [assert(_last_vertex == v)] *)
Definition at_vertex (v : nat) (s : thread) : option thread :=
  match last_vertex s with Some w => if w =? v then Some s else None | None => None end.

Fixpoint visit_stmt (m : mode) (x : tstmt) (s : thread) {struct x} : option thread :=
  match m, x with
  (* thread_visitor.cc:93-132 *)
  | Definitions, Definition_ i name args b =>
      let original := last_vertex s in
      let k := block_sentinel b in
      then_ (visits thread_to args
               (with_last (Some i) (with_inside (k :: inside s) s))) (fun s =>
      then_ (visit_scope visit_stmt b s) (fun s =>
      then_ (at_vertex k s) (fun s =>
      match add_value (functions s) name (i, k) with
      | None => None
      | Some t =>
          if match original with Some v => v =? k | None => false end then None
          else if has_successor (graph s) k then None
          else Some (with_last original (with_inside (tl (inside s)) (with_functions t s)))
      end)))
  | Others, Definition_ _ _ _ _ => Some s
  (* thread_visitor.cc:350-364: asserts in either mode *)
  | _, Loop _ _ _ _ => None
  | Definitions, _ => Some s
  | Others, Expression e => visit_expr e s
  (* thread_visitor.cc:38-54 *)
  | Others, Assignment i target e =>
      then_ (visit_expr e s) (fun s => then_ (visit_expr target s) (fun s =>
      match last_vertex s with Some _ => thread_to i s | None => None end))
  (* thread_visitor.cc:270-293 *)
  | Others, Return i e =>
      then_ (match e with Some e => visit_expr e s | None => Some s end) (fun s =>
      then_ (thread_to i s) (fun s =>
      match inside s with k :: _ => link_last k s | [] => None end))
  (* thread_visitor.cc:314-347 *)
  | Others, Choice i k condition t f =>
      then_ (visit_expr condition s) (fun s =>
      then_ (link_last i s) (fun s =>
      then_ (visit_scope visit_stmt t (with_last (Some i) s)) (fun s =>
      then_ (at_vertex (block_sentinel t) s) (fun s =>
      then_ (link_last k s) (fun s =>
      then_ (match f with
             | Block _ _ [] => Some s
             | _ =>
                 then_ (visit_scope visit_stmt f (with_last (Some i) s)) (fun s =>
                 then_ (at_vertex (block_sentinel f) s) (link_last k))
             end) (fun s =>
      Some (with_last (Some k) s)))))))
  end.

(** thread_visitor.cc:16-25, 159-170: a new visitor; the table and the stack must be empty before
    and after.  The result is the successors of all vertices, [g] those before threading. *)
Definition thread_module (m : tmodule) (g : links) : option links :=
  let (i, b) := m in
  match visit_scope visit_stmt b
          {| graph := g; last_vertex := Some i; functions := []; inside := [] |} with
  | None => None
  | Some s =>
      match link_last i s with
      | None => None
      | Some s =>
          match inside s with
          | [] => if empty (functions s) then Some (graph s) else None
          | _ => None
          end
      end
  end.
