(** * What one expects of features and their paths *)
From Coq Require Import String Ascii List Bool Arith.
From Verif Require Import StringModel StringSpec FeatureModel.
Import ListNotations.

(** Texts in the order of a dictionary. *)
Definition precedes (a b : text) : Prop :=
  (exists c rest, b = a ++ c :: rest) \/
  exists common c d ra rb, a = common ++ c :: ra /\ b = common ++ d :: rb /\
    nat_of_ascii c < nat_of_ascii d.

(** Names of different things, in the order of a dictionary. *)
Inductive ordered : list text -> Prop :=
| O_nil : ordered []
| O_one n : ordered [n]
| O_more n m l : precedes n m -> ordered (m :: l) -> ordered (n :: m :: l).

(** Names and paths: the names with slashes between them, with or without one in front. *)
Definition name (n : text) : Prop := n <> [] /\ ~ In "/"%char n.
Definition relative (ns : list text) : text := joined slash ns.
Definition absolute (ns : list text) : text := slash ++ joined slash ns.
Inductive written : list text -> text -> Prop :=
| W_relative ns : written ns (relative ns)
| W_absolute ns : 1 < length ns -> written ns (absolute ns).

Section spec.
  Context {A : Type}.

  Definition child (h : heap A) (f : addr) (n : text) (g : addr) : Prop :=
    In (n, g) (features (h f)).
  Definition has (h : heap A) (f : addr) (n : text) (a : A) : Prop :=
    In (n, a) (attributes (h f)).

  (** Whatever is stored in a feature has a name of its own. *)
  Definition proper (h : heap A) : Prop :=
    forall f, ordered (map fst (features (h f))) /\ ordered (map fst (attributes (h f))).

  (** From [f] one gets to [g] by going to the children of these names, one after the other. *)
  Inductive leads (h : heap A) : addr -> list text -> addr -> Prop :=
  | L_here f : leads h f [] f
  | L_child f n g ns x : child h f n g -> leads h g ns x -> leads h f (n :: ns) x.

  (** [new] has one more child than [h], or one more attribute, and is otherwise the same. *)
  Definition child_added (h new : heap A) (f : addr) (n : text) (g : addr) : Prop :=
    proper new /\
    (forall x m y, child new x m y <-> child h x m y \/ (x = f /\ m = n /\ y = g)) /\
    (forall x m a, has new x m a <-> has h x m a).
  Definition attribute_added (h new : heap A) (f : addr) (n : text) (a : A) : Prop :=
    proper new /\
    (forall x m y, child new x m y <-> child h x m y) /\
    (forall x m b, has new x m b <-> has h x m b \/ (x = f /\ m = n /\ b = a)).

  (** Nothing is different. *)
  Definition unchanged (h new : heap A) : Prop := forall f, new f = h f.
End spec.

(** What happens where something that has to be there is not: with assertions the program is
    aborted, without them it has undefined behaviour. *)
Definition fatal {V : Type} (debug : bool) : outcome V := if debug then Aborted else Undefined.
