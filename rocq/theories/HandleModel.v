(** * Handles of datasets

    Models the classes whose instances close what they hold: [io/gdal/dataset_handle.h/.cc],
    [io/netcdf/core/dataset_handle.h/.cc], [language/io/fern/hdf5_group.h/.cc], [hdf5_dataset.h/.cc] and
    [hdf5_file.h/.cc].  A failed assertion, in a debug build, is [Aborts]; undefined behaviour is
    [Undefined].

    Simplifications: what libraries open are numbers greater than 0: NetCDF ids, HDF5 ids, addresses of
    GDAL's datasets.  A library gives any number of which nothing is open, also one that was closed
    before.  Handles are made of what has been opened only.  NetCDF and HDF5 refuse, with a status that
    is ignored, ids of which nothing is open; for GDAL these are addresses of nothing.  An HDF5 object is
    not closed by closing another one. *)
From Coq Require Import ZArith List Bool Arith.
Import ListNotations.
Open Scope Z_scope.

(** [Hdf5]: of groups and datasets *)
Inductive kind := Gdal | Netcdf | Hdf5 | Hdf5File.

(** [opened]: what is open.  [handles]: the handles that exist, by name.  [refused]: how often a library
    was asked for something with an id of which nothing is open.  [types]: HDF5 types that are open *)
Record state := State { opened : list Z; handles : list (nat * Z); refused : nat; types : nat }.
Definition start : state := State [] [] 0 0.

Inductive res := Ok (s : state) | Aborts | Undefined.
Definition bind (p : res) (f : state -> res) : res := match p with Ok s => f s | r => r end.

Definition get (l : list (nat * Z)) (h : nat) : option Z :=
  match find (fun e => Nat.eqb (fst e) h) l with Some e => Some (snd e) | None => None end.
Definition put (l : list (nat * Z)) (h : nat) (id : Z) : list (nat * Z) :=
  map (fun e => if Nat.eqb (fst e) h then (h, id) else e) l.
Definition drop (l : list (nat * Z)) (h : nat) : list (nat * Z) := filter (fun e => negb (Nat.eqb (fst e) h)) l.

Definition is_open (s : state) (id : Z) : bool := if in_dec Z.eq_dec id (opened s) then true else false.
Definition set_handles (s : state) (l : list (nat * Z)) : state := State (opened s) l (refused s) (types s).

(** What a library does with what is not open *)
Definition refuse (k : kind) (s : state) : res :=
  match k with Gdal => Undefined | _ => Ok (State (opened s) (handles s) (S (refused s)) (types s)) end.
(** [GDALClose], [nc_close], [H5Gclose], [H5Dclose], [H5Fclose] *)
Definition close (k : kind) (id : Z) (s : state) : res :=
  if is_open s id then Ok (State (remove Z.eq_dec id (opened s)) (handles s) (refused s) (types s)) else refuse k s.
(** gdal dataset_handle.cc:34-37, netcdf dataset_handle.cc:32-35; hdf5_group.cc:57-62,
    hdf5_dataset.cc:58-63, hdf5_file.cc:34-39 *)
Definition release (k : kind) (id : Z) (s : state) : res :=
  match k with
  | Gdal | Netcdf => close k id s
  | Hdf5 | Hdf5File => if 0 <? id then close k id s else Ok s
  end.

(** What programs do with handles.  [Open]: a handle is constructed of what a library has opened.
    [Use]: something is asked of what the handle is for *)
Inductive action :=
| Open (h : nat) (id : Z)
| Default (h : nat)
| MoveConstruct (h other : nat)
| MoveAssign (h other : nat)
| Destroy (h : nat)
| Use (h : nat)
| TypeClass (h : nat).

Section Actions.
Variables (k : kind) (debug : bool).
Definition check (b : bool) (s : state) : res := if debug && negb b then Aborts else Ok s.

(** What is left in a handle that another was moved from: gdal dataset_handle.h:36 and 42, netcdf
    dataset_handle.h:33 and 39, which copy the number; hdf5_group.cc:33-40 and 43-54,
    hdf5_dataset.cc:34-41 and 44-55 *)
Definition left_behind (id : Z) : Z := match k with Gdal | Netcdf => id | Hdf5 | Hdf5File => 0 end.

(** gdal dataset_handle.cc:43-46, netcdf dataset_handle.cc:41-44, hdf5_group.cc:65-69,
    hdf5_dataset.cc:66-70, hdf5_file.cc:42-46, and what the library is asked *)
Definition use (id : Z) (s : state) : res :=
  let able := match k with Gdal | Netcdf => true | Hdf5 | Hdf5File => 0 <? id end in
  bind (check able s) (fun s => if is_open s id then Ok s else refuse k s).

Definition act (a : action) (s : state) : res :=
  match a with
  | Open h id =>
      (** gdal dataset_handle.cc:21-28, netcdf dataset_handle.cc:20-26, hdf5_group.cc:23-30,
          hdf5_dataset.cc:23-30, hdf5_file.cc:24-31: what is asserted holds *)
      Ok (State (id :: opened s) ((h, id) :: handles s) (refused s) (types s))
  | Default h =>
      (** hdf5_group.cc:15-20, hdf5_dataset.cc:15-20, hdf5_file.cc:16-21 *)
      Ok (set_handles s ((h, 0) :: handles s))
  | MoveConstruct h other =>
      match get (handles s) other with
      | None => Undefined
      | Some id => Ok (set_handles s ((h, id) :: put (handles s) other (left_behind id)))
      end
  | MoveAssign h other =>
      match get (handles s) h, get (handles s) other with
      | Some old, Some id =>
          (** HDF5's close what they have first; the others assign the number only *)
          bind (match k with Gdal | Netcdf => Ok s | Hdf5 | Hdf5File => release k old s end)
            (fun s => Ok (set_handles s (put (put (handles s) h id) other (left_behind id))))
      | _, _ => Undefined
      end
  | Destroy h =>
      match get (handles s) h with
      | None => Undefined
      | Some id => bind (release k id s) (fun s => Ok (set_handles s (drop (handles s) h)))
      end
  | Use h =>
      match get (handles s) h with None => Undefined | Some id => use id s end
  | TypeClass h =>
      (** hdf5_dataset.cc:73-84: the type that is opened is not closed *)
      match get (handles s) h with
      | None => Undefined
      | Some id => bind (use id s) (fun s => Ok (if is_open s id then State (opened s) (handles s) (refused s) (S (types s)) else s))
      end
  end.

Fixpoint run (l : list action) (s : state) : res :=
  match l with [] => Ok s | a :: l' => bind (act a s) (run l') end.
End Actions.
