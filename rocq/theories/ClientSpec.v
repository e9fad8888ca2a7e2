(** * What clients of libraries are to do *)
From Coq Require Import String List Bool Arith.
From Verif Require Import ClientModel.
Import ListNotations.

Definition kind_eq (a b : kind) : {a = b} + {a <> b}. Proof. decide equality. Defined.
Definition event_eq (a b : event) : {a = b} + {a <> b}. Proof. repeat decide equality. Defined.

(** The number of instances of a class that have been made, and not destructed, in a history *)
Definition made (k : kind) (l : list event) : nat := count_occ event_eq l (Make k).
Definition destroyed (k : kind) (l : list event) : nat := count_occ event_eq l (Destroy k).
Definition live (k : kind) (l : list event) : nat := made k l - destroyed k l.

(** The histories of programs: only what has been made is destructed *)
Definition possible (l : list event) : Prop := forall k a b, l = a ++ b -> destroyed k a <= made k a.

Definition about (k : kind) (e : event) : Prop := e = Make k \/ e = Destroy k.
Definition parses (e : event) : Prop := e = ParseString \/ exists r, e = ParseFile r.

(** A parser has been made, and none has been destructed since *)
Definition usable (l : list event) : Prop := exists a b, l = a ++ Make Parser :: b /\ ~ In (Destroy Parser) b.
