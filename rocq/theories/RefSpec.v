(** * What references to Python objects are to do

    Someone holds each reference: a tuple that has not been freed, an instance of the class, or
    other code.  An object's count is the number of references to it, and an object to which there
    are none is freed. *)
From Coq Require Import ZArith List Bool Arith Ascii.
From Verif Require Import StringModel RefModel.
Import ListNotations.

Definition cell_items (c : cell) : list nat := match c with Live _ x => items x | Freed => [] end.
(** All references: those of tuples, and those that are held outside of Python's heap *)
Definition references (h : heap) (outside : list nat) : list nat := outside ++ flat_map cell_items h.
Definition number (l : list nat) (i : nat) : nat := count_occ Nat.eq_dec l i.

Definition counted (h : heap) (outside : list nat) : Prop :=
  forall i, match nth_error h i with
            | Some (Live n _) => n = number (references h outside) i /\ 0 < n
            | _ => number (references h outside) i = 0
            end.

Definition alive (h : heap) (i : nat) : Prop := exists n x, nth_error h i = Some (Live n x).
Definition is (h : heap) (i : nat) (x : object) : Prop := exists n, nth_error h i = Some (Live n x).

(** The objects that can be reached from some references *)
Inductive reaches (h : heap) (outside : list nat) : nat -> Prop :=
| ReachesHeld i : In i outside -> reaches h outside i
| ReachesItem i x j : reaches h outside i -> is h i x -> In j (items x) -> reaches h outside j.

(** Who holds what: the references of other code, which includes those Python functions have returned
    and nothing has been done with yet, and the instances with what they hold *)
Record ledger := Ledger { loose : list nat; inst : list (nat * option nat); lent : list (nat * option nat) }.
Definition pointee (o : option nat) : list nat := match o with Some i => [i] | None => [] end.
Definition held (l : ledger) : list nat := loose l ++ flat_map (fun e => pointee (snd e)) (inst l).

(** A reference is taken out of the loose ones *)
Inductive taken : option nat -> list nat -> list nat -> Prop :=
| TakenNone l : taken None l l
| TakenSome i a b : taken (Some i) (a ++ i :: b) (a ++ b).

(** The calls that deal with references as the class documents: what is handed to an instance is
    owned by the caller, unless the instance holds it already; and what is obtained or used can be
    reached. [h] tells what tuples contain. *)
Inductive entitled (h : heap) : ledger -> call -> ledger -> Prop :=
| MayObtain m l b i : reaches h (held (Ledger m l b)) i -> entitled h (Ledger m l b) (Obtain i) (Ledger (i :: m) l b)
| MayGiveUp m m' l b i : taken (Some i) m m' -> entitled h (Ledger m l b) (GiveUp i) (Ledger m' l b)
| MayDefault m l b v : ~ In v (map fst l) -> entitled h (Ledger m l b) (Default v) (Ledger m ((v, None) :: l) b)
| MayFrom m m' l b v o : ~ In v (map fst l) -> taken o m m' ->
    entitled h (Ledger m l b) (From v o) (Ledger m' ((v, o) :: l) b)
| MayKeep m l b v i : ~ In v (map fst l) -> reaches h (held (Ledger m l b)) i ->
    entitled h (Ledger m l b) (Keep v (Some i)) (Ledger m ((v, Some i) :: l) b)
| MayAssignSame m l b v o l1 l2 : l = l1 ++ (v, o) :: l2 -> ~ In v (map fst l1) ->
    entitled h (Ledger m l b) (Assign v o) (Ledger m l b)
| MayAssign m m' l b v o o' l1 l2 : l = l1 ++ (v, o) :: l2 -> ~ In v (map fst l1) -> o <> o' -> taken o' m m' ->
    entitled h (Ledger m l b) (Assign v o') (Ledger m' (l1 ++ (v, o') :: l2) b)
| MayStore m m' l b v o l1 l2 : l = l1 ++ (v, None) :: l2 -> ~ In v (map fst l1) -> taken o m m' ->
    entitled h (Ledger m l b) (Store v o) (Ledger m' (l1 ++ (v, o) :: l2) b)
| MayIncrement m l b v i l1 l2 : l = l1 ++ (v, Some i) :: l2 -> ~ In v (map fst l1) ->
    entitled h (Ledger m l b) (Increment v) (Ledger (i :: m) l b)
| MayEnd m l b v o l1 l2 : l = l1 ++ (v, o) :: l2 -> ~ In v (map fst l1) ->
    entitled h (Ledger m l b) (End v) (Ledger m (l1 ++ l2) b)
| MayUse m l b v i l1 l2 : l = l1 ++ (v, Some i) :: l2 -> ~ In v (map fst l1) -> entitled h (Ledger m l b) (Use v) (Ledger m l b)
| MayBorrow m l b v o : entitled h (Ledger m l b) (Borrow v o) (Ledger m l ((v, o) :: b))
| MayUseBorrowed m l b v i b1 b2 : b = b1 ++ (v, Some i) :: b2 -> ~ In v (map fst b1) ->
    reaches h (held (Ledger m l b)) i -> entitled h (Ledger m l b) (UseBorrowed v) (Ledger m l b).

Inductive entitled_all (h : heap) : ledger -> list call -> ledger -> Prop :=
| EntitledNone l : entitled_all h l [] l
| EntitledMore l c l' calls l'' : entitled h l c l' -> entitled_all h l' calls l'' -> entitled_all h l (c :: calls) l''.

(** The value of a syntax error: a message, and the name of the source, the line, the column and the
    statement *)
Definition syntax_value (h : heap) (v : nat) (message : text) (line column : Z) (statement : text) : Prop :=
  exists m d source l c t,
    is h v (Tuple [m; d]) /\ is h m (Str message) /\ is h d (Tuple [source; l; c; t]) /\
    is h l (Int line) /\ is h c (Int column) /\ is h t (Str statement).

(** The characters up to the first zero *)
Definition up_to_zero (s t : text) : Prop :=
  ~ In "000"%char t /\ (s = t \/ exists rest, s = t ++ "000"%char :: rest).

(** Without the line feeds at both ends *)
Definition trimmed (s t : text) : Prop :=
  let feed := "010"%char in
  exists a b, s = a ++ t ++ b /\ (forall c, In c (a ++ b) -> c = feed) /\
  (forall u, t <> feed :: u) /\ (forall u, t <> u ++ [feed]).

(** The references of the error that is set *)
Definition error_references (s : python) : list nat :=
  match indicator s with Some (t, v, b) => pointee t ++ pointee v ++ pointee b | None => [] end.
