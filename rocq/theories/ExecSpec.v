(** * What executing a module is expected to do *)
From Coq Require Import String List Bool Arith.
From Verif Require Import AstModel SymbolModel ExecModel.
Import ListNotations.

Section Spec.
Context {A : Type}.
Variable operations : string -> option (op A).

(** What names are bound to. *)
Definition env : Type := string -> option A.
Definition bind_name (x : string) (v : A) (n : env) : env := fun y => if String.eqb y x then Some v else n y.

(** A name that is not bound is an input. *)
Definition known (bound ins : env) : env := fun x => match bound x with Some v => Some v | None => ins x end.

(** All arguments have one value. *)
Fixpoint one_each (l : list (option (list A))) : option (list A) :=
  match l with
  | [] => Some []
  | Some [v] :: l' => match one_each l' with Some vs => Some (v :: vs) | None => None end
  | _ => None
  end.

(** The values of an expression: an operation is applied to the values of its arguments, in
    the order in which these are written.  Subscripts have no meaning yet. *)
Fixpoint values (n : env) (e : expr A) : option (list A) :=
  match e with
  | Name _ x => match n x with Some v => Some [v] | None => None end
  | Const _ v => Some [v]
  | Operation _ f args =>
      match operations f, one_each (map (values n) args) with
      | Some o, Some vs => if Nat.eqb (length vs) (arity o) then execute o vs else None
      | _, _ => None
      end
  | Subscript _ _ _ => None
  | Attribute _ e _ => values n e
  end.

(** The meaning of a module without control flow, given the names bound and the inputs: the
    names bound afterwards, the values of the expression statements, and the assignments made
    (the target, its name and the value). *)
Fixpoint meaning (ins bound : env) (m : list (stmt A)) : option (env * list A * list (nat * string * A)) :=
  match m with
  | [] => Some (bound, [], [])
  | Assign t x e :: m' =>
      match values (known bound ins) e with
      | Some [v] =>
          match meaning ins (bind_name x v bound) m' with
          | Some (b, rs, ts) => Some (b, rs, (t, x, v) :: ts)
          | None => None
          end
      | _ => None
      end
  | Expr e :: m' =>
      match values (known bound ins) e with
      | Some vs =>
          match meaning ins bound m' with
          | Some (b, rs, ts) => Some (b, vs ++ rs, ts)
          | None => None
          end
      | None => None
      end
  | If _ _ _ :: _ | While _ _ _ :: _ => None
  end.

(** The names used in an expression, and those that a module uses while they are not bound. *)
Fixpoint uses (e : expr A) (x : string) : Prop :=
  match e with
  | Name _ y => y = x
  | Const _ _ => False
  | Operation _ _ args => fold_right (fun a P => uses a x \/ P) False args
  | Subscript _ e s => uses e x \/ uses s x
  | Attribute _ e _ => uses e x
  end.
Fixpoint needs (bound : string -> Prop) (m : list (stmt A)) (x : string) : Prop :=
  match m with
  | [] => False
  | Assign _ y e :: m' => (uses e x /\ ~ bound x) \/ needs (fun z => z = y \/ bound z) m' x
  | Expr e :: m' => (uses e x /\ ~ bound x) \/ needs bound m' x
  | If _ _ _ :: m' | While _ _ _ :: m' => needs bound m' x
  end.

(** A module without control flow, subscripts and calls with a wrong number of arguments. *)
Fixpoint plain (e : expr A) : Prop :=
  match e with
  | Name _ _ | Const _ _ => True
  | Operation _ f args =>
      match operations f with Some o => arity o = length args | None => True end /\
      fold_right (fun a P => plain a /\ P) True args
  | Subscript _ _ _ => False
  | Attribute _ e _ => plain e
  end.
Definition plain_stmt (t : stmt A) : Prop :=
  match t with Assign _ _ e | Expr e => plain e | If _ _ _ | While _ _ _ => False end.

(** Operations that return one result when they succeed. *)
Definition one_result : Prop :=
  forall f o vs rs, operations f = Some o -> execute o vs = Some rs -> exists v, rs = [v].

(** What the interpreter knows. *)
Definition bound_names (s : exec A) : env := value (symbols s).
Definition input_names (s : exec A) : env := value (sources s).

(** The interpreter has one scope of symbols and one of data sources
    (execute_visitor.cc:51, 53); no calls change that (C48_scopes). *)
Definition ready (s : exec A) : Prop :=
  scope_level (symbols s) = 1 /\ scope_level (sources s) = 1.
End Spec.
