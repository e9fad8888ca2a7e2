(** * The runs of a script, and the paths of a graph *)

From Coq Require Import String List Bool Arith.
From Verif Require Import ThreadModel.
Import ListNotations.

(** All vertices of an expression, a statement, a scope, and a module. *)
Fixpoint expr_vertices (e : texpr) : list nat :=
  match e with
  | Leaf i => [i]
  | Call i _ l | Operator i l => flat_map expr_vertices l ++ [i]
  | Subscripted i a b => expr_vertices a ++ expr_vertices b ++ [i]
  | Member i a => expr_vertices a ++ [i]
  end.

Definition block_vertices_ {X} (f : X -> list nat) (b : block X) : list nat :=
  block_id b :: flat_map f (block_statements b) ++ [block_sentinel b].

Fixpoint stmt_vertices (x : tstmt) : list nat :=
  match x with
  | Expression e => expr_vertices e
  | Assignment i t e => expr_vertices e ++ expr_vertices t ++ [i]
  | Return i (Some e) => expr_vertices e ++ [i]
  | Return i None => [i]
  | Choice i k c t f =>
      expr_vertices c ++ [i] ++ block_vertices_ stmt_vertices t ++
      block_vertices_ stmt_vertices f ++ [k]
  | Loop i c t f =>
      expr_vertices c ++ [i] ++ block_vertices_ stmt_vertices t ++ block_vertices_ stmt_vertices f
  | Definition_ i _ args b => i :: args ++ block_vertices_ stmt_vertices b
  end.
Definition block_vertices : block tstmt -> list nat := block_vertices_ stmt_vertices.
Definition module_vertices (m : tmodule) : list nat := let (i, b) := m in i :: block_vertices b.

(** The functions a call can refer to, the one defined last first.  A function knows the
    functions that precede it in the list. *)
Record function := {
  fn_name : string;
  fn_id : nat;
  fn_args : list nat;
  fn_block : block tstmt }.

Fixpoint lookup (env : list function) (name : string) : option (function * list function) :=
  match env with
  | [] => None
  | f :: outer => if String.eqb (fn_name f) name then Some (f, outer) else lookup outer name
  end.

(** The functions known in a scope: those defined in it, on top of those known outside. *)
Fixpoint known (l : list tstmt) (env : list function) : list function :=
  match l with
  | [] => env
  | Definition_ i name args b :: l' =>
      known l' ({| fn_name := name; fn_id := i; fn_args := args; fn_block := b |} :: env)
  | _ :: l' => known l' env
  end.

(** The vertices a run of the script comes along.  The operands of an expression are evaluated
    from left to right and before the expression itself, the right hand side of an assignment
    before its target, the condition before an if, and the arguments before a call.  Calling a
    function of the script continues with its definition and comes back from the sentinel of its
    scope.  A scope is entered at its own vertex and left through its sentinel.  After a return
    statement, the remaining statements of the function are not looked at: the last argument
    tells whether the run has returned.  [skip] tells whether an if statement without else part
    may be passed without entering its true scope. *)
Section Runs.
Variable skip : bool.
Inductive run_expr : list function -> texpr -> list nat -> Prop :=
| run_leaf env i : run_expr env (Leaf i) [i]
| run_builtin env i name args u :
    lookup env name = None -> run_exprs env args u ->
    run_expr env (Call i name args) (u ++ [i])
| run_call env i name args u f outer b :
    lookup env name = Some (f, outer) -> run_exprs env args u ->
    run_block outer (fn_block f) b true ->
    run_expr env (Call i name args) (u ++ i :: fn_id f :: fn_args f ++ b)
| run_operator env i args u : run_exprs env args u -> run_expr env (Operator i args) (u ++ [i])
| run_subscript env i a b u v :
    run_expr env a u -> run_expr env b v -> run_expr env (Subscripted i a b) (u ++ v ++ [i])
| run_member env i a u : run_expr env a u -> run_expr env (Member i a) (u ++ [i])
with run_exprs : list function -> list texpr -> list nat -> Prop :=
| run_nil env : run_exprs env [] []
| run_cons env e l u v : run_expr env e u -> run_exprs env l v -> run_exprs env (e :: l) (u ++ v)
(* the run of the statements of a scope; [true]: it has returned *)
with run_stmt : list function -> tstmt -> list nat -> bool -> Prop :=
| run_expression env e u : run_expr env e u -> run_stmt env (Expression e) u false
| run_assignment env i t e u v :
    run_expr env e u -> run_expr env t v ->
    run_stmt env (Assignment i t e) (u ++ v ++ [i]) false
| run_return env i e u : run_expr env e u -> run_stmt env (Return i (Some e)) (u ++ [i]) true
| run_return_nothing env i : run_stmt env (Return i None) [i] true
| run_definition env i name args b : run_stmt env (Definition_ i name args b) [] false
| run_true env i k c t f u v :
    run_expr env c u -> run_block env t v false ->
    run_stmt env (Choice i k c t f) (u ++ i :: v ++ [k]) false
| run_false env i k c t f u v :
    run_expr env c u -> block_statements f <> [] -> run_block env f v false ->
    run_stmt env (Choice i k c t f) (u ++ i :: v ++ [k]) false
| run_skip env i k c t f u :
    run_expr env c u -> block_statements f = [] -> skip = true ->
    run_stmt env (Choice i k c t f) (u ++ [i; k]) false
| run_true_return env i k c t f u a z l v :
    run_expr env c u -> t = Block a z l -> run_stmts (known l env) l v true ->
    run_stmt env (Choice i k c t f) (u ++ i :: a :: v) true
| run_false_return env i k c t f u a z l v :
    run_expr env c u -> f = Block a z l -> run_stmts (known l env) l v true ->
    run_stmt env (Choice i k c t f) (u ++ i :: a :: v) true
with run_stmts : list function -> list tstmt -> list nat -> bool -> Prop :=
| run_none env : run_stmts env [] [] false
| run_return_here env x l u : run_stmt env x u true -> run_stmts env (x :: l) u true
| run_some env x l u v r :
    run_stmt env x u false -> run_stmts env l v r -> run_stmts env (x :: l) (u ++ v) r
(* the run of a scope that is left through its sentinel; [true]: a return statement in the scope
   leads there, too *)
with run_block : list function -> block tstmt -> list nat -> bool -> Prop :=
| run_to_end env a z l u returns :
    run_stmts (known l env) l u false -> run_block env (Block a z l) (a :: u ++ [z]) returns
| run_to_return env a z l u :
    run_stmts (known l env) l u true -> run_block env (Block a z l) (a :: u ++ [z]) true.

(** A module is left where it was entered. *)
Definition run_module (m : tmodule) (p : list nat) : Prop :=
  let (i, b) := m in exists u, p = i :: u ++ [i] /\ run_block [] b u false.
End Runs.

(** [p] follows the successors of the graph. *)
Fixpoint path (g : links) (p : list nat) : Prop :=
  match p with
  | v :: ((w :: _) as p') => In w (successors g v) /\ path g p'
  | _ => True
  end.

(** [p] is a path from [v] to [v] that does not come along [v] in between. *)
Definition round_trip (g : links) (v : nat) (p : list nat) : Prop :=
  path g p /\ exists u, p = v :: u ++ [v] /\ ~ In v u.

(** Every if statement has an else part. *)
Fixpoint has_else (x : tstmt) : bool :=
  match x with
  | Choice _ _ _ t f =>
      negb (match block_statements f with [] => true | _ => false end) &&
      forallb has_else (block_statements t) && forallb has_else (block_statements f)
  | Loop _ _ t f => forallb has_else (block_statements t) && forallb has_else (block_statements f)
  | Definition_ _ _ _ b => forallb has_else (block_statements b)
  | _ => true
  end.
Definition all_else (m : tmodule) : bool :=
  let (_, b) := m in forallb has_else (block_statements b).

(** A while statement occurs somewhere. *)
Fixpoint loops (x : tstmt) : bool :=
  match x with
  | Loop _ _ _ _ => true
  | Choice _ _ _ t f => existsb loops (block_statements t) || existsb loops (block_statements f)
  | Definition_ _ _ _ b => existsb loops (block_statements b)
  | _ => false
  end.
Definition module_loops (m : tmodule) : bool :=
  let (_, b) := m in existsb loops (block_statements b).

(** A return statement occurs where it does not belong directly to a function: in an if statement
    ([Direct] tells that the statements are those of a function), or in the module. *)
Fixpoint stray (direct : bool) (x : tstmt) : bool :=
  match x with
  | Return _ _ => negb direct
  | Choice _ _ _ t f | Loop _ _ t f =>
      existsb (stray false) (block_statements t) || existsb (stray false) (block_statements f)
  | Definition_ _ _ _ b => existsb (stray true) (block_statements b)
  | _ => false
  end.
Definition stray_return (m : tmodule) : bool :=
  let (_, b) := m in existsb (stray false) (block_statements b).

(** A function definition comes directly after a return statement. *)
Fixpoint after_return (l : list tstmt) : bool :=
  match l with
  | [] => false
  | Return _ _ :: ((Definition_ _ _ _ _ :: _) as l') => true
  | _ :: l' => after_return l'
  end.
Fixpoint late (x : tstmt) : bool :=
  match x with
  | Choice _ _ _ t f | Loop _ _ t f =>
      after_return (block_statements t) || existsb late (block_statements t) ||
      (after_return (block_statements f) || existsb late (block_statements f))
  | Definition_ _ _ _ b => after_return (block_statements b) || existsb late (block_statements b)
  | _ => false
  end.
Definition late_definition (m : tmodule) : bool :=
  let (_, b) := m in after_return (block_statements b) || existsb late (block_statements b).

(** The calls of functions of the script: for each of them, the sentinel through which the function
    is left. *)
Fixpoint expr_calls (env : list function) (e : texpr) : list nat :=
  match e with
  | Leaf _ => []
  | Call _ name l =>
      flat_map (expr_calls env) l ++
      match lookup env name with Some (f, _) => [block_sentinel (fn_block f)] | None => [] end
  | Operator _ l => flat_map (expr_calls env) l
  | Subscripted _ a b => expr_calls env a ++ expr_calls env b
  | Member _ a => expr_calls env a
  end.

Section Calls.
Variable calls : list function -> tstmt -> list nat.
Fixpoint definition_calls (env : list function) (l : list tstmt) : list nat :=
  match l with
  | [] => []
  | x :: l' =>
      match x with
      | Definition_ i name args b =>
          calls env x ++
          definition_calls ({| fn_name := name; fn_id := i; fn_args := args; fn_block := b |} :: env) l'
      | _ => definition_calls env l'
      end
  end.
Definition other_calls (env : list function) (l : list tstmt) : list nat :=
  flat_map (fun x => match x with Definition_ _ _ _ _ => [] | _ => calls env x end) l.
Definition block_calls_ (env : list function) (b : block tstmt) : list nat :=
  definition_calls env (block_statements b) ++
  other_calls (known (block_statements b) env) (block_statements b).
End Calls.

Fixpoint stmt_calls (env : list function) (x : tstmt) {struct x} : list nat :=
  match x with
  | Expression e => expr_calls env e
  | Assignment _ t e => expr_calls env e ++ expr_calls env t
  | Return _ (Some e) => expr_calls env e
  | Return _ None => []
  | Choice _ _ c t f | Loop _ c t f =>
      expr_calls env c ++ block_calls_ stmt_calls env t ++ block_calls_ stmt_calls env f
  | Definition_ _ _ _ b => block_calls_ stmt_calls env b
  end.
Definition block_calls : list function -> block tstmt -> list nat := block_calls_ stmt_calls.
Definition module_calls (m : tmodule) : list nat := let (_, b) := m in block_calls [] b.

(** What threading needs. *)
Definition threadable (m : tmodule) : Prop :=
  module_loops m = false /\ stray_return m = false /\ late_definition m = false /\
  NoDup (module_calls m).
