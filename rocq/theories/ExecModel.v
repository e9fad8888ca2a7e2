(** * Execution of a module

    Models [language/interpreter/execute_visitor.cc].  Values are of any type [A].  A data source
    is the value it returns when it is read; the names of the sources that are read, and the
    names and values that are written to data syncs, are recorded in the order of the calls.
    [None] is a failed assertion, or an operation that fails.

    The names in the table of data syncs are the ones of its only scope. *)

From Coq Require Import String List Bool Arith.
From Verif Require Import AstModel SymbolModel IoModel.
Import ListNotations.

Section Exec.
Context {A : Type}.

(** An operation: the number of parameters and what [execute] does; operation.h,
    operations.cc:39-53.  [execute] can return any number of results. *)
Record op := { arity : nat; execute : list A -> option (list A) }.
Variable operations : string -> option op.

(** execute_visitor.h *)
Record exec := {
  stack : list A;                 (* the top is the first element *)
  symbols : table A;
  sources : table A;
  syncs : list string;
  outs : list nat;                (* _outputs *)
  reads : list string;
  writes : list (string * A)
}.

Definition set_stack (s : exec) (l : list A) : exec :=
  {| stack := l; symbols := symbols s; sources := sources s; syncs := syncs s; outs := outs s;
     reads := reads s; writes := writes s |}.
Definition set_symbols (s : exec) (t : table A) : exec :=
  {| stack := stack s; symbols := t; sources := sources s; syncs := syncs s; outs := outs s;
     reads := reads s; writes := writes s |}.
Definition set_sources (s : exec) (t : table A) : exec :=
  {| stack := stack s; symbols := symbols s; sources := t; syncs := syncs s; outs := outs s;
     reads := reads s; writes := writes s |}.
Definition set_outs (s : exec) (o : list nat) : exec :=
  {| stack := stack s; symbols := symbols s; sources := sources s; syncs := syncs s; outs := o;
     reads := reads s; writes := writes s |}.
Definition set_syncs (s : exec) (y : list string) : exec :=
  {| stack := stack s; symbols := symbols s; sources := sources s; syncs := y; outs := outs s;
     reads := reads s; writes := writes s |}.
Definition add_read (s : exec) (x : string) : exec :=
  {| stack := stack s; symbols := symbols s; sources := sources s; syncs := syncs s; outs := outs s;
     reads := reads s ++ [x]; writes := writes s |}.
Definition add_write (s : exec) (x : string) (v : A) : exec :=
  {| stack := stack s; symbols := symbols s; sources := sources s; syncs := syncs s; outs := outs s;
     reads := reads s; writes := writes s ++ [(x, v)] |}.
Definition push (v : A) (s : exec) : exec := set_stack s (v :: stack s).

(** execute_visitor.cc:21-37 *)
Definition exec_initial : exec :=
  {| stack := []; symbols := push_scope []; sources := push_scope []; syncs := []; outs := [];
     reads := []; writes := [] |}.

(** execute_visitor.cc:48-66; the argument is the only scope of the table passed in, or empty *)
Definition set_data_source_symbols (pairs : scope A) (s : exec) : option exec :=
  if Nat.eqb (scope_level (sources s)) 1 && Nat.eqb (scope_level (symbols s)) 1 then
    match clear_scope (sources s) with
    | Some t =>
        visits
          (fun p s =>
             if has_value (sources s) (fst p) then None
             else
               match
                 (if has_value (symbols s) (fst p) then erase_value (symbols s) (fst p)
                  else Some (symbols s)),
                 add_value (sources s) (fst p) (snd p)
               with
               | Some y, Some t => Some (set_sources (set_symbols s y) t)
               | _, _ => None
               end) pairs (set_sources s t)
    | None => None
    end
  else None.

(** execute_visitor.cc:69-79 *)
Definition set_data_sync_symbols (names : list string) (s : exec) : exec := set_syncs s names.

(** execute_visitor.cc:89-92 *)
Definition clear_stack (s : exec) : exec := set_stack s [].

(** execute_visitor.cc:191-197: take the arguments from the stack *)
Fixpoint pop_arguments (n : nat) (arguments : list A) (s : exec) : option (list A * exec) :=
  match n with
  | O => Some (arguments, s)
  | S n' =>
      match stack s with
      | [] => None
      | v :: l => pop_arguments n' (v :: arguments) (set_stack s l)
      end
  end.

(** execute_visitor.cc:146-162 *)
Definition exec_name (x : string) (s : exec) : option exec :=
  match
    (if has_value (symbols s) x then Some s
     else
       if has_value (sources s) x then
         match value (sources s) x with
         | Some v =>
             match add_value (symbols s) x v with
             | Some t => Some (add_read (set_symbols s t) x)
             | None => None
             end
         | None => None
         end
       else None)
  with
  | Some s' =>
      if has_value (symbols s') x then
        match value (symbols s') x with Some v => Some (push v s') | None => None end
      else None
  | None => None
  end.

(** execute_visitor.cc:166-202, 217-238; an attribute is visited by the default of
    ast_visitor.cc:66-71 *)
Fixpoint exec_expr (e : expr A) (s : exec) : option exec :=
  match e with
  | Name _ x => exec_name x s
  | Const _ v => Some (push v s)
  | Operation _ f args =>
      match visits exec_expr args s with
      | Some s1 =>
          match operations f with
          | Some o =>
              if arity o <=? length (stack s1) then
                match pop_arguments (length args) [] s1 with
                | Some (vs, s2) =>
                    match execute o vs with
                    | Some rs => Some (fold_left (fun s r => push r s) rs s2)
                    | None => None
                    end
                | None => None
                end
              else None
          | None => None
          end
      | None => None
      end
  | Subscript _ _ _ => Some s
  | Attribute _ e _ => exec_expr e s
  end.

(** execute_visitor.cc:102-143 *)
Definition exec_stmt (t : stmt A) (s : exec) : option exec :=
  match t with
  | Assign id x e =>
      match exec_expr e s with
      | Some s1 =>
          match stack s1 with
          | [] => None
          | v :: l =>
              let s2 :=
                if existsb (Nat.eqb id) (outs s1) && existsb (String.eqb x) (syncs s1)
                then add_write s1 x v else s1 in
              match add_value (symbols s2) x v with
              | Some t => Some (set_stack (set_symbols s2 t) l)
              | None => None
              end
          end
      | None => None
      end
  | Expr e => exec_expr e s
  | If _ _ _ | While _ _ _ => Some s
  end.

(** execute_visitor.cc:205-214 *)
Definition exec_module (m : list (stmt A)) (s : exec) : option exec :=
  match io_module m with
  | Some r => visits exec_stmt m (set_outs s (outputs r))
  | None => None
  end.
End Exec.
Arguments op A : clear implicits.
Arguments exec A : clear implicits.
