(** * Features: trees of child-features and attributes that are addressed by paths

    Models language/feature/core/feature.h and feature.cc and the parts of core/path.cc they
    use. Features and attributes are held by shared pointers and a feature may be added at
    more than one place, so features are objects in a heap that is addressed by numbers.
    Simplifications: the pointers that are added are not null, objects are not destroyed, and
    there is enough memory. What an attribute is (attribute.h) does not matter here: [A] is
    the type of pointers to attributes. *)
From Coq Require Import String Ascii List Bool Arith.
From Verif Require Import StringModel.
Import ListNotations.

Definition addr : Type := nat.

(** core/path.cc:94-97, std::filesystem::path::filename as specified for POSIX (C++17
    30.10.8.4.9): what is behind the last slash. *)
Fixpoint last_part (current t : text) : text :=
  match t with
  | [] => current
  | c :: t' => if Ascii.eqb c "/" then last_part [] t' else last_part (current ++ [c]) t'
  end.
Definition filename (path : text) : text := last_part [] path.

(** core/path.cc:88-91, std::filesystem::path::parent_path: the path up to, and without, the
    slash in front of the file name, which is kept if it is the root directory. Simplification:
    if the root directory is written as more than one slash, this returns a single one. *)
Fixpoint up_to_last_part (t : text) : text :=
  match t with
  | [] => []
  | c :: t' =>
      if existsb (Ascii.eqb "/") t then c :: up_to_last_part t' else []
  end.
Definition parent_path (path : text) : text :=
  match up_to_last_part path with
  | [] => []
  | d => match strip_end d slash with [] => slash | p => p end
  end.

(** std::map<std::string, V> (feature.h:76-78): the order of the keys is the one of
    std::char_traits<char>::compare, the order of unsigned characters. *)
Fixpoint before (a b : text) : bool :=
  match a, b with
  | [], [] => false
  | [], _ :: _ => true
  | _ :: _, [] => false
  | c :: a', d :: b' =>
      if nat_of_ascii c <? nat_of_ascii d then true
      else if nat_of_ascii d <? nat_of_ascii c then false else before a' b'
  end.

(** std::map::find and std::map::at; two keys are the same if none is before the other one. *)
Fixpoint find {V : Type} (k : text) (m : list (text * V)) : option V :=
  match m with
  | [] => None
  | (k', v) :: m' => if before k k' then None else if before k' k then find k m' else Some v
  end.

(** std::map::insert: nothing happens if the key is there already; the second result tells
    whether the pair is inserted. *)
Fixpoint insert {V : Type} (k : text) (v : V) (m : list (text * V)) : list (text * V) * bool :=
  match m with
  | [] => ([(k, v)], true)
  | (k', v') :: m' =>
      if before k k' then ((k, v) :: m, true)
      else if before k' k then let (r, b) := insert k v m' in ((k', v') :: r, b)
      else (m, false)
  end.

Section feature.
  Context {A : Type}.

  (** feature.h:74-78 *)
  Record node : Type := Node { features : list (text * addr); attributes : list (text * A) }.
  Definition heap : Type := addr -> node.
  Definition set (h : heap) (f : addr) (n : node) : heap := fun g => if g =? f then n else h g.

  (** feature.h:31 *)
  Definition empty : node := Node [] [].

  (** What a member function does: return, throw std::out_of_range, fail an assertion, or
      dereference a null pointer. *)
  Inductive outcome (V : Type) : Type :=
  | Done (v : V) | Out_of_range | Aborted | Undefined.
  Arguments Done {V}. Arguments Out_of_range {V}. Arguments Aborted {V}. Arguments Undefined {V}.
  Definition bind {V W : Type} (o : outcome V) (k : V -> outcome W) : outcome W :=
    match o with
    | Done v => k v | Out_of_range => Out_of_range | Aborted => Aborted | Undefined => Undefined
    end.

  (** The macro assert of <cassert>: the condition, which may itself fail, is evaluated unless
      NDEBUG is defined. *)
  Variable debug : bool.
  Definition assert (condition : outcome bool) : outcome unit :=
    if debug then bind condition (fun b => if b then Done tt else Aborted) else Done tt.

  (** feature.cc:104-123 *)
  Fixpoint feature_at (h : heap) (f : addr) (names : list text) : option addr :=
    match names with
    | [] => None
    | n :: rest =>
        match find n (features (h f)) with
        | None => None
        | Some g => match rest with [] => Some g | _ => feature_at h g rest end
        end
    end.

  (** feature.cc:97-101 *)
  Definition feature (h : heap) (f : addr) (path : text) : option addr :=
    feature_at h f (names path).

  (** feature.cc:56-63 *)
  Definition contains_feature (h : heap) (f : addr) (path : text) : bool :=
    match parent_path path with
    | [] => match find path (features (h f)) with Some _ => true | None => false end
    | _ => match feature h f path with Some _ => true | None => false end
    end.

  (** feature.cc:212-229; [None] is the null pointer. *)
  Definition parent_feature (h : heap) (f : addr) (path : text) : outcome (option addr) :=
    bind (assert (Done (match parent_path path with
                        | [] => true | p => contains_feature h f p end)))
      (fun _ => Done (match parent_path path with [] => Some f | p => feature h f p end)).

  (** The arrow operator. *)
  Definition pointed (p : option addr) : outcome addr :=
    match p with Some f => Done f | None => Undefined end.

  (** feature.cc:19-22, 130-133 *)
  Definition nr_features (h : heap) (f : addr) : nat := length (features (h f)).
  Definition nr_attributes (h : heap) (f : addr) : nat := length (attributes (h f)).

  (** feature.cc:25-31 *)
  Definition nr_features_at (h : heap) (f : addr) (path : text) : outcome nat :=
    bind (assert (Done (contains_feature h f path)))
      (fun _ => bind (pointed (feature h f path)) (fun g => Done (nr_features h g))).

  (** feature.cc:136-140 *)
  Definition nr_attributes_at (h : heap) (f : addr) (path : text) : outcome nat :=
    bind (parent_feature h f path)
      (fun p => bind (pointed p) (fun g => Done (nr_attributes h g))).

  (** feature.cc:38-48, 147-157 *)
  Definition feature_names (h : heap) (f : addr) : list text := map fst (features (h f)).
  Definition attribute_names (h : heap) (f : addr) : list text := map fst (attributes (h f)).

  (** feature.cc:204-209 *)
  Definition attribute (h : heap) (f : addr) (path : text) : outcome A :=
    bind (parent_feature h f path) (fun p =>
    bind (pointed p) (fun g =>
      match find (filename path) (attributes (h g)) with
      | Some a => Done a
      | None => Out_of_range
      end)).

  (** feature.cc:165-172 *)
  Definition contains_attribute (h : heap) (f : addr) (path : text) : outcome bool :=
    match parent_path path with
    | [] => Done (match find path (attributes (h f)) with Some _ => true | None => false end)
    | _ => bind (attribute h f path) (fun _ => Done true)
    end.

  (** feature.cc:73-88 *)
  Definition add_feature (h : heap) (f : addr) (path : text) (new : addr) : outcome heap :=
    bind (assert (bind (contains_attribute h f path) (fun b => Done (negb b)))) (fun _ =>
    bind (parent_feature h f path) (fun p =>
    bind (pointed p) (fun g =>
      let (m, inserted) := insert (filename path) new (features (h g)) in
      bind (assert (Done inserted)) (fun _ =>
        Done (set h g (Node m (attributes (h g)))))))).

  (** feature.cc:182-197 *)
  Definition add_attribute (h : heap) (f : addr) (path : text) (new : A) : outcome heap :=
    bind (assert (Done (negb (contains_feature h f path)))) (fun _ =>
    bind (parent_feature h f path) (fun p =>
    bind (pointed p) (fun g =>
      let (m, inserted) := insert (filename path) new (attributes (h g)) in
      bind (assert (Done inserted)) (fun _ =>
        Done (set h g (Node (features (h g)) m)))))).
End feature.
Arguments node : clear implicits. Arguments heap : clear implicits.
Arguments Done {V}. Arguments Out_of_range {V}. Arguments Aborted {V}. Arguments Undefined {V}.
