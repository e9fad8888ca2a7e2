(** * What datasets of the Fern format should do *)
From Coq Require Import ZArith List Bool SpecFloat Ascii.
From Verif Require Import IntsModel ArithModel FloatModel StringModel RasterModel StoreModel.
Import ListNotations.

(** [q] is above [p] *)
Definition above (q p : path) : Prop := exists r, r <> [] /\ p = q ++ r.
(** The feature that an attribute is in *)
Definition feature_of (p : path) : path := removelast p.
(** All that is above an object is a feature. *)
Definition rooted (t : tree) (p : path) : Prop := forall q, above q p -> find t q = Some Group.
Definition sound (t : tree) : Prop := forall p o, find t p = Some o -> rooted t p.

(** What an assertion that fails leads to, where the program would otherwise go on with something
    that has no value *)
Definition failure {A} (debug : bool) : outcome A := if debug then Aborted else Undefined.

(** A number can be written: all features but the last one exist, the last one is not an attribute,
    and there is no attribute yet, or it has the type of the number. *)
Definition ready (t : tree) (p : path) (n : num) : Prop :=
  p <> [] /\ rooted t (feature_of p) /\
  (find t (feature_of p) = None \/ find t (feature_of p) = Some Group) /\
  (find t p = None \/ exists m, find t p = Some (Scalar m) /\ vty_of m = vty_of n).

(** A sequence of writes *)
Fixpoint write_all (debug : bool) (convert : vty -> num -> num) (t : tree) (ws : list (path * num)) : outcome tree :=
  match ws with
  | [] => Done t
  | (p, n) :: ws => t' <~ write_attribute debug convert t (Some n) p ;; write_all debug convert t' ws
  end.
(** [n] was the last number written to [p] *)
Definition last_written (ws : list (path * num)) (p : path) (n : num) : Prop :=
  exists before after, ws = before ++ (p, n) :: after /\ forall m, ~ In (p, m) after.
