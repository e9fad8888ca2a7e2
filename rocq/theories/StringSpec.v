(** * What the string functions are expected to do *)
From Coq Require Import String Ascii List Bool Arith.
From Verif Require Import StringModel.
Import ListNotations.

(** [s] consists of the words [ws] with separators between, before and after them: words are
    not empty and without separators, and there is at least one separator between words. *)
Definition all (p : ascii -> Prop) (s : text) : Prop := forall c, In c s -> p c.
Inductive separated (sep : ascii -> Prop) : text -> list text -> Prop :=
| separated_nothing before :
    all sep before -> separated sep before []
| separated_last before w after :
    all sep before -> w <> [] -> all (fun c => ~ sep c) w -> all sep after ->
    separated sep (before ++ w ++ after) [w]
| separated_more before w d s ws :
    all sep before -> w <> [] -> all (fun c => ~ sep c) w -> sep d -> ws <> [] ->
    separated sep s ws -> separated sep (before ++ w ++ d :: s) (w :: ws).

(** The words with a separator between them. *)
Fixpoint joined (sep : text) (ws : list text) : text :=
  match ws with
  | [] => []
  | [w] => w
  | w :: ws' => w ++ sep ++ joined sep ws'
  end.

(** [old] occurs in [s] after [before]. *)
Definition occurs_after (before old s : text) : Prop := exists after, s = before ++ old ++ after.

(** [s] is [parts] with [old] in between, where reading from left to right every [old] is the
    first occurrence behind the previous one and there is none in the last part. *)
Inductive cut (old : text) : text -> list text -> Prop :=
| cut_end s : (forall before, ~ occurs_after before old s) -> cut old s [s]
| cut_more part s parts :
    (forall before, occurs_after before old (part ++ old ++ s) -> length part <= length before) ->
    cut old s parts -> cut old (part ++ old ++ s) (part :: parts).

(** A normal path: the root, or slashes each followed by a non-empty name. *)
Definition normal_path (path : text) : Prop :=
  exists ns, path = slash ++ joined slash ns /\
    forall n, In n ns -> n <> [] /\ ~ In "/"%char n.

(** The characters that separate or are stripped: the given ones, or white space (tab, line
    feed, vertical tab, form feed, carriage return and space) if none are given. *)
Definition separators (characters : text) (c : ascii) : Prop :=
  (characters <> [] /\ In c characters) \/
  (characters = [] /\ In c (map ascii_of_nat [9; 10; 11; 12; 13; 32])).
