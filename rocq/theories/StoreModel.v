(** * Datasets of the Fern format

    Models [language/io/fern/{fern_dataset.cc,hdf5_file.cc,hdf5_group.{h,cc},hdf5_dataset.h}].

    A dataset is an HDF5 file: groups, which are the features, and scalars, which are the
    attributes.  Paths are those of data names (C53): absolute, so they are lists of names, and [[]]
    is the path of the root.

    Trusted is what HDF5 does: [H5Lexists] fails (a negative number, which is not zero) if a part of
    the path before the last one is not a group, and says that the root exists; [H5Gcreate] and
    [H5Dcreate] fail if there is such an object already, or the name is empty; writing to a scalar
    of another type converts the number.  [H5Gget_objinfo] fails, and sets nothing, if the object
    cannot be found.  Simplifications: datasets have been opened for writing; objects that are
    neither groups nor scalars are arrays of numbers. *)
From Coq Require Import ZArith List Bool SpecFloat Ascii.
From Verif Require Import IntsModel ArithModel FloatModel StringModel RasterModel.
Import ListNotations.

Definition path := list text.
Inductive object := Group | Scalar (n : num) | Elements.
(** What was written last comes first. *)
Definition tree := list (path * object).

Definition same_path (p q : path) : bool := if list_eq_dec (list_eq_dec ascii_dec) p q then true else false.
Fixpoint lookup (t : tree) (p : path) : option object :=
  match t with
  | [] => None
  | (q, o) :: t => if same_path q p then Some o else lookup t p
  end.
Definition find (t : tree) (p : path) : option object :=
  match p with [] => Some Group | _ => lookup t p end.
Definition groups_at (t : tree) (p : path) : bool :=
  match find t p with Some Group => true | _ => false end.
(** The parts of the path before the last one are groups. *)
Fixpoint reachable (t : tree) (above p : path) : bool :=
  groups_at t above && match p with [] => true | [_] => true | n :: p => reachable t (above ++ [n]) p end.

Section Dataset.
Variables debug : bool.
(** What HDF5 makes of a number, if it is written to a scalar of another type *)
Variables convert : vty -> num -> num.

(** hdf5_file.cc:69-86, 89-106.  If [H5Lexists] fails, the object is looked for nevertheless, and
    the type of what has not been found is compared. *)
Definition has_type (t : tree) (p : path) (is : object -> bool) : outcome bool :=
  if reachable t [] p then
    match find t p with Some o => Done (is o) | None => Done false end
  else if debug then Aborted else Undefined.
Definition is_group (t : tree) (p : path) : outcome bool :=
  has_type t p (fun o => match o with Group => true | _ => false end).
Definition is_dataset (t : tree) (p : path) : outcome bool :=
  has_type t p (fun o => match o with Group => false | _ => true end).

(** fern_dataset.cc:204-227: all names are visited, also after one has not been found. *)
Fixpoint contains_features (t : tree) (above p : path) (result : bool) : outcome bool :=
  match p with
  | [] => Done result
  | n :: p =>
      b <~ is_group t (above ++ [n]) ;;
      contains_features t (above ++ [n]) p (if b then result else false)
  end.
Definition contains_feature (t : tree) (p : path) : outcome bool := contains_features t [] p true.

(** fern_dataset.cc:245-252.  The parent of the root is the root. *)
Definition contains_attribute (t : tree) (p : path) : outcome bool :=
  b <~ contains_feature t (removelast p) ;;
  if b then is_dataset t p else Done false.

(** hdf5_file.cc:109-118.  A group that cannot be created is ignored, if assertions are not
    checked. *)
Definition create_group (t : tree) (p : path) : outcome tree :=
  match find t p with
  | Some _ => if debug then Aborted else Done t
  | None => if reachable t [] p then Done ((p, Group) :: t) else if debug then Aborted else Done t
  end.
(** fern_dataset.cc:616-631 *)
Fixpoint add_groups (t : tree) (above p : path) : outcome tree :=
  match p with
  | [] => Done t
  | n :: p =>
      b <~ is_group t (above ++ [n]) ;;
      t' <~ (if b then Done t else create_group t (above ++ [n])) ;;
      add_groups t' (above ++ [n]) p
  end.
(** fern_dataset.cc:607-613.  Assertions call functions that may abort. *)
Definition add_feature (t : tree) (p : path) : outcome tree :=
  if debug then
    f <~ contains_feature t p ;;
    if f then Aborted else
    a <~ contains_attribute t p ;;
    if a then Aborted else
    match p with [] => Aborted | _ => add_groups t [] p end
  else add_groups t [] p.

(** [H5T_INTEGER] or [H5T_FLOAT] *)
Definition same_class (n m : num) : bool :=
  match n, m with NInt _ _, NInt _ _ | NFloat _ _, NFloat _ _ => true | _, _ => false end.
Definition written (m n : num) : num := if same_type (vty_of n) (vty_of m) then n else convert (vty_of m) n.

(** fern_dataset.cc:640-699 *)
Definition write_constant (t : tree) (n : num) (p : path) : outcome tree :=
  let feature := removelast p in
  f <~ contains_feature t feature ;;
  t <~ (if f then Done t else add_feature t feature) ;;
  if groups_at t feature then
    a <~ is_dataset t p ;;
    if a then
      match find t p with
      | Some (Scalar m) =>
          if debug && negb (same_class m n) then Aborted
          else Done ((p, Scalar (written m n)) :: t)
      | _ => if debug then Aborted else Undefined
      end
    else
      match find t p with
      | Some _ => if debug then Aborted else Done t
      | None => Done ((p, Scalar n) :: t)
      end
  else if debug then Aborted else Undefined.

(** fern_dataset.cc:712-751.  [None]: a field, or a constant which is a [bool], a character or a
    string *)
Definition write_attribute (t : tree) (attribute : option num) (p : path) : outcome tree :=
  match attribute with
  | Some n => write_constant t n p
  | None => if debug then Aborted else Done t
  end.

(** fern_dataset.cc:58-69, 518-602.  [None]: no attribute, without an error *)
Definition read_attribute (t : tree) (p : path) : outcome (option num) :=
  a <~ contains_attribute t p ;;
  if a then
    match find t p with
    | Some (Scalar n) => Done (Some n)
    | _ => if debug then Aborted else Done None
    end
  else Thrown.

(** operation/std/read.cc:37-58, fern_dataset.cc:501-515: [read], once the dataset has been opened.
    Features are never read. *)
Definition read_data (t : tree) (p : path) : outcome (option num) :=
  f <~ contains_feature t p ;;
  if f then (if debug then Aborted else Done None)
  else read_attribute t p.
End Dataset.
