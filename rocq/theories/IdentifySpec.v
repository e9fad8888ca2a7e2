(** * Which definition a use refers to *)
From Coq Require Import String List Bool Arith.
From Verif Require Import AstModel.
Import ListNotations.

Section Spec.
Context {A : Type}.

(** The definition of each name that is visible at some place. *)
Definition scoping : Type := string -> option nat.
Definition define (x : string) (v : nat) (n : scoping) : scoping :=
  fun y => if String.eqb y x then Some v else n y.

(** All name vertices in the order in which a module is read, each with the definition it refers
    to.  The names in an assigned expression are looked up before the target is defined, a
    target is its own definition, and what a branch defines is visible in that branch only. *)
Fixpoint expr_links (n : scoping) (e : expr A) : list (nat * option nat) :=
  match e with
  | Name v x => [(v, n x)]
  | Const _ _ => []
  | Operation _ _ args => flat_map (expr_links n) args
  | Subscript _ e s => expr_links n e ++ expr_links n s
  | Attribute _ e _ => expr_links n e
  end.
Definition after (n : scoping) (t : stmt A) : scoping :=
  match t with Assign v x _ => define x v n | _ => n end.
Fixpoint stmt_links (n : scoping) (t : stmt A) : list (nat * option nat) :=
  let block := fix block n l :=
    match l with [] => [] | t :: l' => stmt_links n t ++ block (after n t) l' end in
  match t with
  | Assign v x e => expr_links n e ++ [(v, Some v)]
  | Expr e => expr_links n e
  | If c t f | While c t f => expr_links n c ++ block n t ++ block n f
  end.
Fixpoint links (n : scoping) (m : list (stmt A)) : list (nat * option nat) :=
  match m with [] => [] | t :: m' => stmt_links n t ++ links (after n t) m' end.

Definition nothing : scoping := fun _ => None.

(** All name vertices. *)
Fixpoint expr_vertices (e : expr A) : list nat :=
  match e with
  | Name v _ => [v]
  | Const _ _ => []
  | Operation _ _ args => flat_map expr_vertices args
  | Subscript _ e s => expr_vertices e ++ expr_vertices s
  | Attribute _ e _ => expr_vertices e
  end.
Fixpoint stmt_vertices (t : stmt A) : list nat :=
  match t with
  | Assign v _ e => expr_vertices e ++ [v]
  | Expr e => expr_vertices e
  | If c t f | While c t f => expr_vertices c ++ flat_map stmt_vertices t ++ flat_map stmt_vertices f
  end.
Definition vertices (m : list (stmt A)) : list nat := flat_map stmt_vertices m.

Definition option_list {X} (o : option X) : list X := match o with Some x => [x] | None => [] end.

(** The vertices that refer to [d], without [d] itself. *)
Definition referring (d : nat) (l : list (nat * option nat)) : list nat :=
  flat_map (fun p => match snd p with
                     | Some d' => if (d' =? d) && negb (fst p =? d) then [fst p] else []
                     | None => []
                     end) l.
End Spec.
