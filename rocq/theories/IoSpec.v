(** * What the inputs and outputs of a module are expected to be *)
From Coq Require Import String List Bool Arith.
From Verif Require Import AstModel.
Import ListNotations.

Section Spec.
Context {A : Type}.

(** The uses and definitions of names in the order in which a module is read: an assigned
    expression before the name it is assigned to, a condition before the statements. *)
Inductive event := Use (x : string) | Define (target : nat) (x : string).

Fixpoint expr_events (e : expr A) : list event :=
  match e with
  | Name _ x => [Use x]
  | Const _ _ => []
  | Operation _ _ args => flat_map expr_events args
  | Subscript _ e s => expr_events e ++ expr_events s
  | Attribute _ e _ => expr_events e
  end.
Fixpoint stmt_events (t : stmt A) : list event :=
  match t with
  | Assign id x e => expr_events e ++ [Define id x]
  | Expr e => expr_events e
  | If c t f | While c t f => expr_events c ++ flat_map stmt_events t ++ flat_map stmt_events f
  end.
Definition events (m : list (stmt A)) : list event := flat_map stmt_events m.

Fixpoint used_names (es : list event) : list string :=
  match es with
  | [] => []
  | Use x :: es' => x :: used_names es'
  | Define _ _ :: es' => used_names es'
  end.
Fixpoint definitions (es : list event) : list (nat * string) :=
  match es with
  | [] => []
  | Use _ :: es' => definitions es'
  | Define i x :: es' => (i, x) :: definitions es'
  end.

(** The first occurrence of each name. *)
Fixpoint firsts (l : list string) : list string :=
  match l with [] => [] | x :: l' => x :: filter (fun y => negb (String.eqb y x)) (firsts l') end.

(** The last definition of each name. *)
Fixpoint lasts (ds : list (nat * string)) : list (nat * string) :=
  match ds with
  | [] => []
  | (i, x) :: ds' =>
      if existsb (fun d => String.eqb (snd d) x) ds' then lasts ds' else (i, x) :: lasts ds'
  end.

(** All names but one are defined at most once. *)
Definition one_redefined (ds : list (nat * string)) : Prop :=
  exists x, forall y, y <> x -> count_occ string_dec (map snd ds) y <= 1.
End Spec.
