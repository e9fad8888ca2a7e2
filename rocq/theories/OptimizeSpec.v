(** * Which definitions can be inlined *)
From Coq Require Import String List Bool Arith.
From Verif Require Import AstModel.
Import ListNotations.

Section Spec.
Context {A : Type}.
Implicit Types (m : list (stmt A)).

(** The names that an expression or a module uses, once for each use. *)
Fixpoint expr_names (e : expr A) : list string :=
  match e with
  | Name _ x => [x]
  | Const _ _ => []
  | Operation _ _ args => flat_map expr_names args
  | Subscript _ e s => expr_names e ++ expr_names s
  | Attribute _ e _ => expr_names e
  end.
Definition names_used m : list string :=
  flat_map (fun t => match t with Assign _ _ e | Expr e => expr_names e | _ => [] end) m.

(** The names that a module assigns, once for each assignment. *)
Definition names_assigned m : list string :=
  flat_map (fun t => match t with Assign _ x _ => [x] | _ => [] end) m.

(** A module without control flow. *)
Definition straight m : Prop :=
  Forall (fun t => match t with Assign _ _ _ | Expr _ => True | _ => False end) m.

(** Names have one value all the time: each one is assigned at most once, and not after it was
    used. *)
Fixpoint settled m : Prop :=
  match m with
  | [] => True
  | Assign _ x e :: m' =>
      ~ In x (names_assigned m') /\
      (forall y, In y (expr_names e) -> y <> x /\ ~ In y (names_assigned m')) /\ settled m'
  | Expr e :: m' => (forall y, In y (expr_names e) -> ~ In y (names_assigned m')) /\ settled m'
  | _ => False
  end.

(** A name that is assigned, and used once. *)
Definition temporary m (x : string) : bool :=
  existsb (String.eqb x) (names_assigned m) && (count_occ string_dec (names_used m) x =? 1).

(** The expression that is assigned to a name. *)
Fixpoint assigned m (x : string) : option (expr A) :=
  match m with
  | Assign _ y e :: m' => if String.eqb y x then Some e else assigned m' x
  | _ :: m' => assigned m' x
  | [] => None
  end.

(** Temporary names are only copied: they are used as the expression of an assignment, and not
    within one, and not copied to another temporary name. *)
Definition only_copied m : Prop :=
  Forall (fun t =>
            match t with
            | Assign _ x (Name _ y) => temporary m y = true -> temporary m x = false
            | Assign _ _ e | Expr e => forall y, In y (expr_names e) -> temporary m y = false
            | _ => True
            end) m.

(** The module without the assignments to temporary names, and with copies of these replaced by
    what was assigned to them. *)
Definition inlined m : list (stmt A) :=
  flat_map (fun t =>
              match t with
              | Assign v x e =>
                  if temporary m x then []
                  else
                    match e with
                    | Name _ y =>
                        if temporary m y
                        then match assigned m y with Some e' => [Assign v x e'] | None => [t] end
                        else [t]
                    | _ => [t]
                    end
              | _ => [t]
              end) m.
End Spec.
